{
 "claims": [
  {
   "property": "C01",
   "status": "proved",
   "theorems": [
    "C01_in_range",
    "C01_class_stable",
    "C01_no_dangling"
   ],
   "note": ""
  },
  {
   "property": "C02",
   "status": "proved",
   "theorems": [
    "C02_construct_int",
    "C02_construct_any",
    "C02_construct_only",
    "C02_construct_reject",
    "C02_negative_size"
   ],
   "note": ""
  },
  {
   "property": "C03",
   "status": "proved",
   "theorems": [
    "C03_bits",
    "C03_from_bits",
    "C03_to_bits",
    "C03_binary_string"
   ],
   "note": ""
  },
  {
   "property": "C04",
   "status": "proved",
   "theorems": [
    "C04_as_sint",
    "C04_as_sint_is_signed",
    "C04_signed_unique",
    "C04_int",
    "C04_sint_roundtrip",
    "C04_empty"
   ],
   "note": ""
  },
  {
   "property": "C05",
   "status": "proved",
   "theorems": [
    "C05_add",
    "C05_sub",
    "C05_mul",
    "C05_neg",
    "C05_operators"
   ],
   "note": ""
  },
  {
   "property": "C06",
   "status": "proved",
   "theorems": [
    "C06_not",
    "C06_and",
    "C06_or",
    "C06_xor",
    "C06_nand",
    "C06_nor",
    "C06_xnor"
   ],
   "note": ""
  },
  {
   "property": "C07",
   "status": "proved",
   "theorems": [
    "C07_shl",
    "C07_lshr",
    "C07_ashr",
    "C07_saturate"
   ],
   "note": ""
  },
  {
   "property": "C08",
   "status": "proved",
   "theorems": [
    "C08_udiv_urem"
   ],
   "note": ""
  },
  {
   "property": "C09",
   "status": "proved",
   "theorems": [
    "C09_sdiv",
    "C09_srem",
    "C09_identity"
   ],
   "note": ""
  },
  {
   "property": "C10",
   "status": "proved",
   "theorems": [
    "C10_unsigned",
    "C10_signed",
    "C10_operators"
   ],
   "note": ""
  },
  {
   "property": "C11",
   "status": "proved",
   "theorems": [
    "C11_concat",
    "C11_concat_reject",
    "C11_slice_range",
    "C11_slice_any",
    "C11_slice_step0",
    "C11_split_join"
   ],
   "note": ""
  },
  {
   "property": "C12",
   "status": "proved",
   "theorems": [
    "C12_zext",
    "C12_negative",
    "C12_ext_unsigned"
   ],
   "note": ""
  },
  {
   "property": "C13",
   "status": "proved",
   "theorems": [
    "C13_repeat",
    "C13_reject"
   ],
   "note": ""
  },
  {
   "property": "C14",
   "status": "proved",
   "theorems": [
    "C14_rol",
    "C14_ror",
    "C14_inverse"
   ],
   "note": ""
  },
  {
   "property": "C15",
   "status": "proved",
   "theorems": [
    "C15_adc"
   ],
   "note": ""
  },
  {
   "property": "C16",
   "status": "proved",
   "theorems": [
    "C16_overflow"
   ],
   "note": ""
  },
  {
   "property": "C17",
   "status": "proved",
   "theorems": [
    "C17_getitem",
    "C17_getitem_range",
    "C17_setitem",
    "C17_setitem_range",
    "C17_setitem_reject",
    "C17_setitem_slice",
    "C17_setitem_other",
    "C17_setitem_other_reject"
   ],
   "note": ""
  },
  {
   "property": "C18",
   "status": "proved",
   "theorems": [
    "C18_operators",
    "C18_comparisons",
    "C18_methods"
   ],
   "note": ""
  },
  {
   "property": "C19",
   "status": "partial",
   "theorems": [
    "C19_reflected_partial",
    "C19_reflected_comparisons",
    "C19_rshift_refuted",
    "C19_rshift_swapped"
   ],
   "note": "Proved for every operator except >> on the unsigned classes, where the claim is false: k >> x computes x >> k (C19_rshift_refuted, C19_rshift_swapped)."
  },
  {
   "property": "C20",
   "status": "partial",
   "theorems": [
    "C20_right_operand",
    "C20_comparisons",
    "C20_left_operand_refuted",
    "C20_left_operand_partial"
   ],
   "note": "The right-operand and comparison parts are proved in full. obj op x raises NameError instead of TypeError (C20_left_operand_refuted); it never returns a value (C20_left_operand_partial)."
  },
  {
   "property": "C21",
   "status": "partial",
   "theorems": [
    "C21_same_class",
    "C21_key_determines",
    "C21_cross_class_refuted"
   ],
   "note": "Same-class part proved in full. Across classes the claim is false (C21_cross_class_refuted)."
  },
  {
   "property": "C22",
   "status": "proved",
   "theorems": [
    "C22_left",
    "C22_right",
    "C22_bad_int"
   ],
   "note": ""
  },
  {
   "property": "C23",
   "status": "proved",
   "theorems": [
    "C23_same_types",
    "C23_compatible",
    "C23_incompatible"
   ],
   "note": ""
  },
  {
   "property": "C24",
   "status": "partial",
   "theorems": [
    "C24_operators",
    "C24_comparisons",
    "C24_unsupported",
    "C24_vector_operand_partial",
    "C24_builtin_agree",
    "C24_int_refuted",
    "C24_right_shift_refuted",
    "C24_mixed_right_refuted"
   ],
   "note": "Proved for every operator and comparison with any right operand that is not a vector, for any nesting, and for vector right operands whose class is not below the class of the selected operand. False for int(v), for v as right operand of >>, and for right operands of a subclass (the _refuted theorems)."
  },
  {
   "property": "C25",
   "status": "proved",
   "theorems": [
    "C25_protocol",
    "C25_exact",
    "C25_round_trip",
    "C25_type_mismatch"
   ],
   "note": ""
  },
  {
   "property": "C26",
   "status": "partial",
   "theorems": [
    "C26_fresh_partial",
    "C26_assignment_local",
    "C26_mutation_isolated_partial",
    "C26_remainder_alias_refuted"
   ],
   "note": "Every operator, method, constructor and ite result is a new object, except remainder by zero, which returns the dividend object itself (C26_remainder_alias_refuted)."
  },
  {
   "property": "C27",
   "status": "partial",
   "theorems": [
    "C27_implicit_unsigned_partial",
    "C27_width",
    "C27_arguments",
    "C27_implicit_copy",
    "C27_implicit_signed_refuted"
   ],
   "note": "True for unsigned reading. For SIntVector false for every positive int (C27_implicit_signed_refuted)."
  },
  {
   "property": "C28",
   "status": "proved",
   "theorems": [
    "C28_operators",
    "C28_comparisons"
   ],
   "note": ""
  },
  {
   "property": "C29",
   "status": "proved",
   "theorems": [
    "C29_issubclass",
    "C29_cached",
    "C29_held",
    "C29_attributes",
    "C29_distinct",
    "C29_subclass",
    "C29_bases_sized",
    "C29_errors"
   ],
   "note": "Over all histories of class statements, indexing, dropped references and garbage collection."
  },
  {
   "property": "C30",
   "status": "partial",
   "theorems": [
    "C30_methods",
    "C30_comparisons",
    "C30_unary",
    "C30_rotate_partial",
    "C30_rotate_refuted",
    "C30_amounts",
    "C30_infix",
    "C30_infix_reflected",
    "C30_infix_comparisons",
    "C30_bits",
    "C30_rxor_refuted",
    "C30_bit_left_refuted",
    "C30_size_mismatch",
    "C30_unsupported_partial",
    "C30_unsupported_left_refuted"
   ],
   "note": "Every named method, comparison, infix operator (both sides), unary operator and Bit operator, for any faithful simplifier. False for rotation by a symbolic or out-of-range amount, int ^ SMTBit, and SMTBit & SMTBitVector (the _refuted theorems)."
  },
  {
   "property": "C31",
   "status": "partial",
   "theorems": [
    "C31_bvsdiv_partial",
    "C31_bvsrem_partial",
    "C31_infix",
    "C31_refuted"
   ],
   "note": "The exact set of operand values on which the two families agree (iff). Elsewhere false: SMT-LIB truncates, the concrete family rounds down (C31_refuted)."
  },
  {
   "property": "C32",
   "status": "partial",
   "theorems": [
    "C32_construct",
    "C32_construct_refuted",
    "C32_getitem",
    "C32_getitem_raises",
    "C32_slice_partial",
    "C32_slice_refuted",
    "C32_concat",
    "C32_zext",
    "C32_sext_partial",
    "C32_ext_partial",
    "C32_sext_refuted",
    "C32_setitem",
    "C32_setitem_raises",
    "C32_adc"
   ],
   "note": "Construction, indexing, concat, zext, item assignment, adc in full; slices when non-empty with start in range; sext/ext for k >= 1. The rest is false (the _refuted theorems). ite is C65."
  },
  {
   "property": "C33",
   "status": "partial",
   "theorems": [
    "C33_smt_partial",
    "C33_smt_refuted",
    "C33_smt_low_refuted",
    "C33_z3_partial",
    "C33_z3_refuted"
   ],
   "note": "Only repeat(1) is right in both symbolic families; every r >= 2 raises TypeError (C33_smt_refuted, C33_z3_refuted); r <= 0 does not raise in the pySMT family (C33_smt_low_refuted)."
  },
  {
   "property": "C34",
   "status": "partial",
   "theorems": [
    "C34_distinct",
    "C34_in_use",
    "C34_accepted",
    "C34_generated_partial",
    "C34_one_prefix",
    "C34_generated_refuted",
    "C34_generation",
    "C34_bad_arguments",
    "C34_families_refuted",
    "C34_stale_type"
   ],
   "note": "Distinctness, rejection and totality of generation in all histories. Generated names never repeat for automatic names and string prefixes; non-string prefixes can repeat a name (C34_generated_refuted), and SMTFPVector has a separate table (C34_families_refuted)."
  },
  {
   "property": "C35",
   "status": "partial",
   "theorems": [
    "C35_refuted",
    "C35_automatic_refuted",
    "C35_generated_partial",
    "C35_named_partial",
    "C35_float",
    "C35_formulas"
   ],
   "note": "False as stated: a name is free again once its variable is collected, even if formulas still mention it (C35_refuted, C35_automatic_refuted). True for generated names never passed as name=, for names never used before, and for SMTFPVector() (FreshSymbol)."
  },
  {
   "property": "C36",
   "status": "proved",
   "theorems": [
    "C36_formula",
    "C36_empty"
   ],
   "note": ""
  },
  {
   "property": "C37",
   "status": "partial",
   "theorems": [
    "C37_arithmetic",
    "C37_comparisons",
    "C37_neg",
    "C37_as_uint",
    "C37_as_sint_partial",
    "C37_as_sint_refuted"
   ],
   "note": "as_sint is proved for widths >= 2; at width 1 it always raises AssertionError (C37_as_sint_refuted)."
  },
  {
   "property": "C38",
   "status": "partial",
   "theorems": [
    "C38_methods",
    "C38_comparisons",
    "C38_unary",
    "C38_rotate",
    "C38_bvsrem",
    "C38_bvsdiv_partial",
    "C38_bvsdiv_refuted",
    "C38_infix_partial",
    "C38_infix_refuted",
    "C38_reflected_refuted",
    "C38_infix_comparisons",
    "C38_bits",
    "C38_bit_rejects",
    "C38_size_mismatch",
    "C38_construct",
    "C38_construct_refuted",
    "C38_getitem",
    "C38_slice_partial",
    "C38_slice_refuted",
    "C38_concat",
    "C38_zext",
    "C38_sext_partial",
    "C38_sext_refuted",
    "C38_ext_partial",
    "C38_ext_refuted",
    "C38_setitem",
    "C38_setitem_raises",
    "C38_adc",
    "C38_ite_same",
    "C38_ite_convert",
    "C38_ite_plain",
    "C38_ite_width",
    "C38_ite_refuted",
    "C38_vec_ite"
   ],
   "note": "Named methods, comparisons, rotation, signed remainder, construction, indexing, concat, zext, item assignment, adc, ite and Bit operators in full. False for signed //, operators with a plain left operand (no reflected methods), ext of the signed class, slices outside 0 <= lo < hi, ite on bits and on different classes (the _refuted theorems)."
  },
  {
   "property": "C39",
   "status": "partial",
   "theorems": [
    "C39_well_typed_partial",
    "C39_slice_refuted",
    "C39_raise",
    "C39_class_stable",
    "C39_frame",
    "C39_tuple_call",
    "C39_sum_call",
    "C39_tag_call",
    "C39_union_arguments",
    "C39_keywords"
   ],
   "note": "All histories of constructor calls, item and attribute assignments. Slice assignment breaks it (C39_slice_refuted)."
  },
  {
   "property": "C40",
   "status": "partial",
   "theorems": [
    "C40_components_partial",
    "C40_rejected",
    "C40_refuted",
    "C40_slice",
    "C40_attribute"
   ],
   "note": "The components are right; equality with the freshly built tuple and hashability fail after every assignment (C40_refuted), because the components are then kept in a list."
  },
  {
   "property": "C41",
   "status": "partial",
   "theorems": [
    "C41_value_dict",
    "C41_tuple_partial",
    "C41_assigned_refuted",
    "C41_sum_partial",
    "C41_sum_refuted",
    "C41_tag_partial",
    "C41_tag_refuted"
   ],
   "note": "True for Tuples and Products never assigned to, for Sums whose value matches exactly one alternative and is not None (iff), for TaggedUnions whose value is not None (iff). False otherwise (the _refuted theorems)."
  },
  {
   "property": "C42",
   "status": "partial",
   "theorems": [
    "C42_enumerate_partial",
    "C42_modified_refuted",
    "C42_tuple_of_vectors",
    "C42_union_of_vectors"
   ],
   "note": "Proved with completeness, absence of duplicates and cardinality for types built from Enums and any ADT nesting, including modified ADTs; false for a modified Enum (C42_modified_refuted)."
  },
  {
   "property": "C43",
   "status": "partial",
   "theorems": [
    "C43_match",
    "C43_one_partial",
    "C43_refuted"
   ],
   "note": "The exact rule (C43_match). Exactly one alternative matches when alternatives are unrelated classes; false otherwise (C43_refuted)."
  },
  {
   "property": "C44",
   "status": "proved",
   "theorems": [
    "C44_last_assigned",
    "C44_constructed"
   ],
   "note": ""
  },
  {
   "property": "C45",
   "status": "partial",
   "theorems": [
    "C45_reflexive",
    "C45_symmetric",
    "C45_transitive_partial",
    "C45_transitive_refuted",
    "C45_hash_partial",
    "C45_hash_refuted"
   ],
   "note": "Reflexive and symmetric in full (relative to leaf equality). Transitive and compatible with hash on the values of one type; false across types (the _refuted theorems)."
  },
  {
   "property": "C46",
   "status": "partial",
   "theorems": [
    "C46_bind",
    "C46_index_identical",
    "C46_index_distinct",
    "C46_named_identical",
    "C46_named_distinct",
    "C46_kinds_distinct",
    "C46_uncached",
    "C46_parts_alive",
    "C46_empty_refuted",
    "C46_special_methods_refuted",
    "C46_number_refuted"
   ],
   "note": "All histories of class creation, dropped references and collection, for unbound classes with one base. False for from_fields without fields (C46_empty_refuted); definitions differing only in special methods, or in 1 versus True, share one class (C46_special_methods_refuted, C46_number_refuted)."
  },
  {
   "property": "C47",
   "status": "partial",
   "theorems": [
    "C47_rebind_partial",
    "C47_shallow_partial",
    "C47_same_partial",
    "C47_absent_partial",
    "C47_gone_partial",
    "C47_modified_refuted",
    "C47_anonymous_refuted",
    "C47_methods_refuted"
   ],
   "note": "Proved for types without AnonymousProduct whose modifiers sit on leaves, Enums or unbound classes. Findings: AnonymousProducts cannot be rebound (TypeError); m(Tuple[..]).rebind(..) gives m(Tuple)[..] even if nothing changes; methods of a Product are lost when a field changes."
  },
  {
   "property": "C48",
   "status": "partial",
   "theorems": [
    "C48_rebind_bitvector_partial",
    "C48_keep_modifiers_partial",
    "C48_unwrap",
    "C48_order_partial",
    "C48_idempotent_partial",
    "C48_modified_refuted",
    "C48_anonymous_refuted"
   ],
   "note": "Proved for every order in which Sum alternatives are listed; with keep_modifiers=True also for modified ADTs. Findings: AnonymousProducts raise TypeError; without keep_modifiers the modifiers of bit-vectors are dropped."
  },
  {
   "property": "C49",
   "status": "partial",
   "theorems": [
    "C49_rebind_type_partial",
    "C49_round_trip_partial",
    "C49_modified_refuted",
    "C49_nested_modifier_refuted",
    "C49_signed_refuted"
   ],
   "note": "Round trip proved for unmodified types over Bit and BitVector. Findings: a modified type raises NameError (undefined names in rebind_type); nested modifiers are dropped; SIntVector/UIntVector become BitVector."
  },
  {
   "property": "C50",
   "status": "proved",
   "theorems": [
    "C50_issubclass",
    "C50_same",
    "C50_held",
    "C50_parts",
    "C50_subclass",
    "C50_mro",
    "C50_applies",
    "C50_abstract",
    "C50_modifier_subclasses",
    "C50_plain",
    "C50_injective",
    "C50_wrap_unwrap",
    "C50_unwrap_wrap",
    "C50_wrap",
    "C50_make_modifier"
   ],
   "note": "All class hierarchies and histories with garbage collection: M(T) is M(T), get_modifier/get_unmodified, method resolution order of M(T), exact condition under which M(T) works (TypeError when M was already applied at or above T), wrap/unwrap inverse both ways, cached make_modifier. Metaclass hooks, names, instances of modifiers and modifiers of modifiers are not modelled."
  },
  {
   "property": "C51",
   "status": "partial",
   "theorems": [
    "C51_strip_partial",
    "C51_unwrap",
    "C51_unmodified_partial",
    "C51_unbound_refuted",
    "C51_anonymous_refuted",
    "C51_methods_refuted"
   ],
   "note": "Proved for types whose modifiers are applied to bound types, without AnonymousProducts or methods. Findings: AnonymousProduct raises TypeError; m(Tuple)[..] keeps its modifier; methods are lost."
  },
  {
   "property": "C52",
   "status": "partial",
   "theorems": [
    "C52_push_partial",
    "C52_repeated",
    "C52_unwrap",
    "C52_strip_partial",
    "C52_anonymous_refuted"
   ],
   "note": "Same types as C51; a leaf below the same modifier twice raises TypeError (C52_repeated)."
  },
  {
   "property": "C53",
   "status": "partial",
   "theorems": [
    "C53_dispatch",
    "C53_once",
    "C53_leaves",
    "C53_no_visit_leaf_refuted",
    "C53_inst_step",
    "C53_instances_partial",
    "C53_sum_refuted",
    "C53_none_refuted"
   ],
   "note": "ADTVisitor proved in full for a visitor that defines visit_leaf; ADTInstVisitor for values whose Sums match one alternative. Findings: visit calls visit_leaf but the base class defines visit_Leaf; a Sum value matching two alternatives is visited twice; None components are skipped."
  },
  {
   "property": "C54",
   "status": "partial",
   "theorems": [
    "C54_mapping",
    "C54_equal",
    "C54_order_sensitive",
    "C54_hash_partial",
    "C54_equivalence",
    "C54_cross_refuted",
    "C54_transitive_refuted"
   ],
   "note": "Hash contract and order sensitivity proved per class, for arbitrary key/value types with lawful ==; between FrozenDict and OrderedFrozenDict the contract is false (C54_cross_refuted: equal objects, different hashes) and == is not transitive."
  },
  {
   "property": "C55",
   "status": "partial",
   "theorems": [
    "C55_reserved",
    "C55_from_fields_reserved",
    "C55_fields_partial",
    "C55_private_refuted",
    "C55_method_refuted",
    "C55_parameter_refuted",
    "C55_order_refuted"
   ],
   "note": "Reserved names are rejected in class statements and from_fields; the other qualifying entries are the fields, in order for products and for new classes. False for names _x_, methods with reserved names, Product fields self and cls, and for the order of a re-defined tagged union (the _refuted theorems)."
  },
  {
   "property": "C56",
   "status": "proved",
   "theorems": [
    "C56_bits",
    "C56_size"
   ],
   "note": "Every format accepted by class indexing, every pattern, vectors of any kind; NaN payload and sign are canonicalised (0x7F800001-like pattern). gmpy2/MPFR rounding is modelled at algorithm level."
  },
  {
   "property": "C57",
   "status": "partial",
   "theorems": [
    "C57_values_partial",
    "C57_refuted"
   ],
   "note": "Proved for every value a program can build in types with at least two exponent bits (both compliance settings, all modes); refuted for one exponent bit: FPVector[1,1,RNE,True](1.5) holds 2.0, whose pattern is infinity."
  },
  {
   "property": "C58",
   "status": "partial",
   "theorems": [
    "C58_values_partial",
    "C58_exact_partial",
    "C58_refuted"
   ],
   "note": "Both directions for types with at least two exponent bits; refuted for one exponent bit."
  },
  {
   "property": "C59",
   "status": "partial",
   "theorems": [
    "C59_classes_partial",
    "C59_refuted"
   ],
   "note": "Types with at least two exponent bits; with one bit and ieee_compliance False fp_is_normal raises AssertionError (refuted)."
  },
  {
   "property": "C60",
   "status": "partial",
   "theorems": [
    "C60_rounded_partial",
    "C60_away_partial",
    "C60_refuted",
    "C60_special"
   ],
   "note": "RNE, RTP, RTN, RTZ are the IEEE 754 directions incl. overflow and underflow; RNA (nearest, ties away) is implemented as round away from zero: what it computes is proved, the claim for RNA is refuted."
  },
  {
   "property": "C61",
   "status": "partial",
   "theorems": [
    "C61_neg_partial",
    "C61_abs_partial",
    "C61_refuted"
   ],
   "note": "neg flips exactly the sign bit; abs clears it except on -0, where it stays set (refuted)."
  },
  {
   "property": "C62",
   "status": "partial",
   "theorems": [
    "C62_subnormal",
    "C62_nan",
    "C62_other",
    "C62_values_partial",
    "C62_values_refuted"
   ],
   "note": "Patterns in full (NaN patterns always become +infinity, the sign is lost). No value is a NaN or subnormal in types with at least two exponent bits; with one the question raises AssertionError (C62_values_refuted)."
  },
  {
   "property": "C63",
   "status": "partial",
   "theorems": [
    "C63_methods_partial",
    "C63_min_max_refuted",
    "C63_to_ubv",
    "C63_to_sbv_refuted",
    "C63_reinterpret",
    "C63_construct",
    "C63_mixed_refuted",
    "C63_other_size",
    "C63_number",
    "C63_arity",
    "C63_unbound_refuted",
    "C63_binding"
   ],
   "note": "Every method except fp_min, fp_max and to_sbv is well sorted in every history. Findings: fp_min and fp_max always raise ValueError (declared with one parameter), to_sbv always raises KeyError, a plain class statement on the unbound type raises AttributeError, values of another format of the same size are accepted silently."
  },
  {
   "property": "C64",
   "status": "proved",
   "theorems": [
    "C64_vector",
    "C64_bit"
   ],
   "note": "Keys are symbols. The result always has class SMTBitVector[n]."
  },
  {
   "property": "C65",
   "status": "partial",
   "theorems": [
    "C65_ite",
    "C65_ite_incompatible",
    "C65_protocol",
    "C65_protocol_mismatch",
    "C65_operators",
    "C65_operator_values",
    "C65_comparisons",
    "C65_vector_operand_partial",
    "C65_vector_comparisons",
    "C65_rejected",
    "C65_mixed_right_refuted"
   ],
   "note": "ite on any nesting, protocol objects, every operator and comparison with a non-vector right operand, comparisons of vectors. Vector right operands follow the concrete operators of C24 (partial) and inherit its counterexample (C65_mixed_right_refuted)."
  },
  {
   "property": "C66",
   "status": "partial",
   "theorems": [
    "C66_sext_partial",
    "C66_ext_signed_partial",
    "C66_negative",
    "C66_sext_zero_refuted",
    "C66_sext_zero_always"
   ],
   "note": "Proved for every extension k >= 1. x.sext(0) always raises ValueError (C66_sext_zero_always), so the claim is false at k = 0."
  },
  {
   "property": "C67",
   "status": "partial",
   "theorems": [
    "C67_total_partial",
    "C67_total_refuted",
    "C67_float_refuted"
   ],
   "note": "Proved, with the exact method resolution order, when plain mixins follow the bit-vector bases (C67_total_partial). False in general: C67_total_refuted gives a hierarchy Python accepts whose K[8] raises TypeError, and C67_float_refuted shows K[4.0] depends on the history."
  },
  {
   "property": "C68",
   "status": "proved",
   "theorems": [
    "C68_common_bases",
    "C68_no_duplicates",
    "C68_covers"
   ],
   "note": ""
  },
  {
   "property": "C69",
   "status": "proved",
   "theorems": [
    "C69_random",
    "C69_every_value",
    "C69_injective",
    "C69_zero_width_signed"
   ],
   "note": ""
  },
  {
   "property": "C70",
   "status": "proved",
   "theorems": [
    "C70_order",
    "C70_nan",
    "C70_sign",
    "C70_sign_nan",
    "C70_operands"
   ],
   "note": "Formats with at least two exponent bits for the order; NaN and operand errors for every format."
  },
  {
   "property": "C71",
   "status": "proved",
   "theorems": [
    "C71_arithmetic",
    "C71_fma",
    "C71_rem",
    "C71_integral",
    "C71_minmax",
    "C71_invalid",
    "C71_zero_sign"
   ],
   "note": "Finite operands: exact result rounded once (RNA = away from zero). fp_sqrt is C73, to_sbv/to_ubv are C74."
  },
  {
   "property": "C72",
   "status": "proved",
   "theorems": [
    "C72_function",
    "C72_independent",
    "C72_names",
    "C72_operators"
   ],
   "note": "All histories of class creation, collection, variables and to_ubv calls; pySMT symbols and function application are modelled (one table of declared names, argument sorts checked). Interpretations are arbitrary."
  },
  {
   "property": "C73",
   "status": "proved",
   "theorems": [
    "C73_sqrt",
    "C73_exact",
    "C73_special"
   ],
   "note": "All formats with at least two exponent bits, every rounding direction (RNA = away from zero, see C60), both compliance settings."
  },
  {
   "property": "C74",
   "status": "proved",
   "theorems": [
    "C74_value",
    "C74_integral",
    "C74_fits",
    "C74_errors"
   ],
   "note": "The direction in which gmpy2 turns a fractional mpfr into an int is a parameter of the theorem."
  },
  {
   "property": "C75",
   "status": "partial",
   "theorems": [
    "C75_normal_partial",
    "C75_refuted"
   ],
   "note": "Proved for draws u = j/2^mantissa_size in types whose exponents fit in the significand (eb <= mb+2). Refuted in general: 1+u is rounded before scaling, so u close to 1 at the largest exponent gives an infinity although allow_inf is False; for wide exponents the exponent itself is rounded. random also creates a new gmpy2.random_state() in each call."
  },
  {
   "property": "C76",
   "status": "proved",
   "theorems": [
    "C76_issubclass",
    "C76_cached",
    "C76_held",
    "C76_attributes",
    "C76_unbound",
    "C76_class_statement",
    "C76_distinct",
    "C76_subclass",
    "C76_bases_bound",
    "C76_errors"
   ],
   "note": "All histories with garbage collection. SMTFPVector subclasses are in C63/C72; namespaces defining _info_ are not modelled."
  },
  {
   "property": "C77",
   "status": "partial",
   "theorems": [
    "C77_total_partial",
    "C77_total_refuted",
    "C77_like_refuted"
   ],
   "note": "Proved when plain mixins come after the floating-point bases; refuted otherwise (TypeError from C3 although the class itself exists). An index equal to a valid one but of other types, such as (5, 10, RNE, 1), raises IndexError unless the class happens to be cached (C77_like_refuted)."
  },
  {
   "property": "C78",
   "status": "partial",
   "theorems": [
    "C78_smt_partial",
    "C78_z3_partial",
    "C78_agree_partial",
    "C78_concrete_partial",
    "C78_refuted"
   ],
   "note": "Proved for all programs a checker accepts from the classes of the inputs and the program text alone (ProgSpec.v). What it rejects is where the families differ (C30-C33, C38): // and % of signed vectors, a signed right operand of a class above it, ext of signed vectors in z3, empty slices, sext(0), ite of Bits in z3, int left operands. Item assignment is applied to a fresh copy here; in place, with aliasing, it is in C108."
  },
  {
   "property": "C79",
   "status": "partial",
   "theorems": [
    "C79_sat_smt_partial",
    "C79_sat_z3_partial",
    "C79_valid_partial"
   ],
   "note": "For the programs of C78."
  },
  {
   "property": "C80",
   "status": "partial",
   "theorems": [
    "C80_issubclass",
    "C80_fields",
    "C80_index",
    "C80_cached",
    "C80_subclass",
    "C80_anonymous_partial",
    "C80_mixed_refuted",
    "C80_product_partial",
    "C80_tagged_partial",
    "C80_unbound_t_partial",
    "C80_unbound_t_refuted",
    "C80_total_refuted"
   ],
   "note": "All histories of class statements (any bases), indexing, dropped references and collection. Findings: K[i] of a class that Python accepts may raise TypeError (no consistent MRO); class P(P1, P2) over two unbound Product classes has no unbound_t (AttributeError), so rebind fails on it; class MyA(AnonymousProduct, MyT) for class MyT(Tuple) gives MyA[m] that is not a subclass of MyT[types]."
  },
  {
   "property": "C81",
   "status": "partial",
   "theorems": [
    "C81_anonymous",
    "C81_product_partial",
    "C81_tagged",
    "C81_inherit",
    "C81_add_refuted",
    "C81_join_refuted",
    "C81_product_refuted"
   ],
   "note": "Anonymous products, tagged unions and single inheritance in full. For products, proved when no user-defined base defines the name. Findings: an attribute of an unbound base class hides the field of the same name (AnonymousProduct[fields] comes after it in the MRO); class B(A): y = T on a bound product A with the same types is accepted, keeps A's field_dict and makes y an alias of x; class C(A, B) of two bound products with the same types under other names is accepted with the field_dict of A only."
  },
  {
   "property": "C82",
   "status": "partial",
   "theorems": [
    "C82_members",
    "C82_attributes_partial",
    "C82_attributes_refuted",
    "C82_attributes_uncached",
    "C82_from_fields",
    "C82_enumerate",
    "C82_order_partial",
    "C82_order_refuted",
    "C82_call",
    "C82_name_partial",
    "C82_value_partial",
    "C82_names_refuted",
    "C82_hidden_partial",
    "C82_hidden_refuted",
    "C82_accepted",
    "C82_unhashable",
    "C82_reserved"
   ],
   "note": "All histories of class statements over Enum and its subclasses, from_fields and cache eviction. Findings: a class statement equal up to order (or True for 1) to an earlier cached one returns the old class, with its order and values; a member called name or value makes .name/.value and repr of every member raise AttributeError, and a member called unbound_t makes the class statement raise AttributeError, though none of them is reserved; from a member of a sub-enum the members of the enum above can be reached; a cached class statement that differs from an earlier one only in __x__ attributes returns the old class with the old methods."
  },
  {
   "property": "C83",
   "status": "partial",
   "theorems": [
    "C83_no_field_dict",
    "C83_equal",
    "C83_equivalence_partial",
    "C83_equivalence_refuted",
    "C83_sub_enum",
    "C83_no_members",
    "C83_two_bases",
    "C83_one_base",
    "C83_fields_partial",
    "C83_fields_refuted"
   ],
   "note": "== and hash in full; it is an equivalence among comparable types only (members of two sub-enums of E may equal the same member of E and not each other), and different members with equal values are equal. class F(E): pass lists E's members, none of which is an instance of F, so F(F.a) raises TypeError (C83_no_members). With several bases fields and field_dict of such a class can disagree (C83_fields_refuted)."
  },
  {
   "property": "C84",
   "status": "partial",
   "theorems": [
    "C84_keep_partial",
    "C84_here",
    "C84_absent_partial",
    "C84_unwrap",
    "C84_subclass_refuted",
    "C84_modified_leaf_refuted",
    "C84_modified_tuple_refuted",
    "C84_twice_refuted"
   ],
   "note": "Proved for A and B without fields, modifiers on leaves and Enums, if no component that changes occurs inside another component of the same type. Findings: rebind_keep_modifiers(Tuple[UIntVector[4], Tuple[UIntVector[4], SIntVector[4]]], BitVector[4], Bit) leaves SIntVector[4] in place (the inner tuple was already rebound by the recursive rebind of the first field); the same for a modified leaf; m(Tuple[Bit]) inside the type loses its modifier (becomes m(Tuple)[Bit]) though nothing in it is replaced; if B contains A, a type occurring twice is replaced twice. For arbitrary A and B (with fields too): a type that is a subclass of A becomes B (C84_here) and a type in which nothing is a subclass of A is left alone (C84_absent_partial)."
  },
  {
   "property": "C85",
   "status": "proved",
   "theorems": [
    "C85_get",
    "C85_set",
    "C85_delete",
    "C85_class",
    "C85_own",
    "C85_inherited",
    "C85_base_order",
    "C85_decorators_pure",
    "C85_shared_refuted",
    "C85_assigned_refuted"
   ],
   "note": "Proved for every program that declares the property by decorators in a class body and does not call the property object afterwards. Findings: one TypedProperty(T) object used as the decorator of two functions makes both names use the second function, because __call__ changes and returns the object itself; a property assigned to a class after the class statement (C.x = p) is not final, so C.x is the property object and not T."
  },
  {
   "property": "C86",
   "status": "partial",
   "theorems": [
    "C86_method_partial",
    "C86_alias_refuted"
   ],
   "note": "Proved when the function is in one Method under one name; finding: a function that is in the body under two names carries the last one."
  },
  {
   "property": "C87",
   "status": "partial",
   "theorems": [
    "C87_distinct",
    "C87_in_use",
    "C87_accepted",
    "C87_accepted_refuted",
    "C87_generation",
    "C87_generated",
    "C87_arguments"
   ],
   "note": "Distinctness, rejection, generation and argument checks in full. Acceptance is for names no live object is registered under: z3BitVector[0](name=n) is registered before z3 refuses the sort, so n is blocked although no variable has it (C87_accepted_refuted)."
  },
  {
   "property": "C88",
   "status": "partial",
   "theorems": [
    "C88_live",
    "C88_fresh_refuted",
    "C88_generated_refuted",
    "C88_named_partial",
    "C88_generated_partial",
    "C88_formulas"
   ],
   "note": "Live variables never share a constant (C88_live). False for new variables: the table is weak, so a name can be reused while a value made from the old variable lives, by hand (C88_fresh_refuted) and by the generator after a name V_k was used by hand (C88_generated_refuted); the _partial theorems give the exact conditions."
  },
  {
   "property": "C89",
   "status": "partial",
   "theorems": [
    "C89_methods",
    "C89_values",
    "C89_ext",
    "C89_ext_negative",
    "C89_ext_zero_refuted",
    "C89_concat",
    "C89_concat_builtin",
    "C89_concat_refuted",
    "C89_builtin"
   ],
   "note": "All methods but ext and concat in full (C89_methods; C89_builtin says the model is the concrete one on the built-in classes). ext is proved for amounts >= 1; ext(0) of a value with a signed branch raises even if the other one is selected (C89_ext_zero_refuted). concat is proved for arguments of the class of v; with any other class it raises TypeError although the selected class accepts it (C89_concat_refuted)."
  },
  {
   "property": "C90",
   "status": "partial",
   "theorems": [
    "C90_concrete",
    "C90_smt_bit",
    "C90_truth_refuted",
    "C90_smt_answer",
    "C90_smt_ne",
    "C90_z3_answer_partial",
    "C90_z3_tuple_refuted",
    "C90_ne_refuted"
   ],
   "note": "Proved: concrete values; bool(SMTBit) raises; every answer of == and != of pySMT instances is right; == of z3 Sums and TaggedUnions. Findings: every SMTBitVector, z3BitVector (even 0) and z3Bit (even False) is true (C90_truth_refuted); so == of two Tuples or Products of z3 values of one type is always True and != always False (C90_z3_tuple_refuted), != of Sums and TaggedUnions of z3 values is always False and of pySMT values raises (C90_ne_refuted)."
  },
  {
   "property": "C91",
   "status": "partial",
   "theorems": [
    "C91_smt_right_partial",
    "C91_smt_left_partial",
    "C91_smt_shr_refuted",
    "C91_smt_compare_partial",
    "C91_smt_negative_refuted",
    "C91_width_refuted",
    "C91_smt_bits_partial",
    "C91_smt_xor_refuted",
    "C91_z3_right_partial",
    "C91_z3_left_refuted",
    "C91_z3_compare",
    "C91_z3_bits"
   ],
   "note": "Proved with the exact conditions. Findings: unsigned concrete >> SMTBitVector computes x >> c (C91_smt_shr_refuted); a negative SIntVector raises ValueError or NameError (C91_smt_negative_refuted); other widths are accepted silently (C91_width_refuted); Bit ^ SMTBit raises TypeError (C91_smt_xor_refuted); a concrete left operand of a z3 value raises TypeError for every operator (C91_z3_left_refuted). Signed // and % of pySMT and signed // of z3 are the subject of C31, C38."
  },
  {
   "property": "C92",
   "status": "partial",
   "theorems": [
    "C92_class_names",
    "C92_class_names_refuted",
    "C92_repr",
    "C92_typed_partial",
    "C92_sum_refuted",
    "C92_subclass_refuted",
    "C92_str_number",
    "C92_repr_vector",
    "C92_repr_bit",
    "C92_sint0_refuted",
    "C92_prints",
    "C92_text_determines",
    "C92_name_evaluates",
    "C92_repr_evaluates",
    "C92_empty_refuted"
   ],
   "note": "Proved: class names of anonymous types; repr of Bits, vectors, Tuples, AnonymousProducts in full; Products, TaggedUnions and Enums within one type. Findings: types made by class statements share names (C92_class_names_refuted); a Sum prints its value with str, so BitVector[4](3) and BitVector[8](3) print alike in a Sum (C92_sum_refuted), and so do Product components that are instances of subclasses (C92_subclass_refuted); str(SIntVector[0](0)) raises IndexError, and with it repr of every Product, Sum or TaggedUnion that contains one (C92_sint0_refuted); the repr of an empty Tuple is 'Tuple[]()', a SyntaxError (C92_empty_refuted). SMT, z3 and floating-point reprs are not modelled."
  },
  {
   "property": "C93",
   "status": "proved",
   "theorems": [
    "C93_text_determines",
    "C93_meaning",
    "C93_operands"
   ],
   "note": "Leaf texts are assumed to be one line, not empty, not ending in a comma and not equal to the first line of a connective."
  },
  {
   "property": "C94",
   "status": "partial",
   "theorems": [
    "C94_adt",
    "C94_adt_index",
    "C94_adt_total",
    "C94_adt_raises",
    "C94_adt_distinct",
    "C94_bound_refuted",
    "C94_vector",
    "C94_vector_index",
    "C94_vector_total",
    "C94_vector_raises",
    "C94_vector_distinct"
   ],
   "note": "All histories. new(K, i) for an unbound K succeeds whenever K[i] is there, and for bit vectors also when mixins come last above K. Finding: for a bound K, new(K, i) is no new type but the type of the field i (C94_bound_refuted). name= and module= only rename the class and are left out."
  },
  {
   "property": "C95",
   "status": "partial",
   "theorems": [
    "C95_widen",
    "C95_float",
    "C95_float_rounded",
    "C95_float_special",
    "C95_construct_partial",
    "C95_construct_refuted",
    "C95_errors"
   ],
   "note": "Refuted for objects that are converted through __float__ (numpy.int64, fractions.Fraction, decimal.Decimal): they are rounded to a double first, so K(numpy.int64(2**53 + 1)) of a type with a 60-bit mantissa is not 2**53 + 1. What gmpy2 reads in a string is an argument of the model."
  },
  {
   "property": "C96",
   "status": "proved",
   "theorems": [
    "C96_never_conflicts",
    "C96_context",
    "C96_inherited"
   ],
   "note": "A class body that defines _ctx_ itself is left out."
  },
  {
   "property": "C97",
   "status": "partial",
   "theorems": [
    "C97_dictionary_partial",
    "C97_one_class_partial",
    "C97_map",
    "C97_assigned_refuted",
    "C97_class_refuted",
    "C97_collision_refuted"
   ],
   "note": "Refuted for keys that are assigned to (x[i] = b) while they are in the dictionary: neither the object nor its old nor its new value finds the entry. Equal values of different classes are different keys, and a collision of the hashes of keys of different sizes raises InconsistentSizeError. Proved for all histories without such assignments and collisions; with keys of one class for all hash functions. CPython's dict is part of the trusted reading."
  },
  {
   "property": "C98",
   "status": "partial",
   "theorems": [
    "C98_position",
    "C98_slice",
    "C98_product_partial",
    "C98_inherit",
    "C98_sum",
    "C98_anonymous_refuted",
    "C98_added_refuted"
   ],
   "note": "Refuted for names: a string subscript of an AnonymousProduct raises TypeError, and a field added by a class statement over a bound Product (see C81) raises KeyError although it is an attribute. Everything else is proved."
  },
  {
   "property": "C99",
   "status": "partial",
   "theorems": [
    "C99_answers",
    "C99_settled",
    "C99_warm",
    "C99_alone",
    "C99_one_class_refuted",
    "C99_order_refuted",
    "C99_makes_refuted"
   ],
   "note": "Refuted for evaluations that overlap: two threads may get two different classes BitVector[8]; afterwards issubclass(UIntVector[8], BitVector[8]) may be False for ever; and K[8] may raise TypeError for ever for a K with several bases. Everything else is proved for all schedules. A step is one access to the shared state (CPython's global lock); no collection while the threads run."
  },
  {
   "property": "C100",
   "status": "partial",
   "theorems": [
    "C100_methods",
    "C100_values",
    "C100_ext",
    "C100_ext_selected",
    "C100_ext_negative",
    "C100_concat_builtin",
    "C100_concat_refuted"
   ],
   "note": "Refuted for v.concat(y): a polymorphic class accepts only its own vectors, so y of another class raises TypeError although the selected class accepts it. Where the symbolic family differs from the concrete one on built-in classes (C30-C33, C37: signed division, rotations by vectors, empty slices, repeat) it differs here; C100_methods covers these calls too. Everything else is proved."
  },
  {
   "property": "C101",
   "status": "partial",
   "theorems": [
    "C101_generated",
    "C101_race",
    "C101_shared_name",
    "C101_own_names",
    "C101_locked",
    "C101_finishes",
    "C101_alone",
    "C101_distinct_refuted",
    "C101_automatic_refuted"
   ],
   "note": "Refuted for unsynchronised name=: the table is looked up and written in separate steps, so two threads that pass one name at the same time both succeed and their variables are one symbol; an automatic name can meet an explicit V_n the same way. Everything else is proved. pySMT's own thread safety is not modelled (its symbol table is read and written in one step)."
  },
  {
   "property": "C102",
   "status": "partial",
   "theorems": [
    "C102_issubclass",
    "C102_isinstance",
    "C102_meta",
    "C102_objects",
    "C102_inherited",
    "C102_derived",
    "C102_ite",
    "C102_stable",
    "C102_any_type_refuted",
    "C102_metameta_refuted",
    "C102_unrelated_refuted"
   ],
   "note": "Refuted for the comment in the code: a class that defines _bitvector_t_ itself (as a classmethod) is not a protocol type, and its instances, which are no types, are instances of BitVectorProtocolMeta; a metaclass of a metaclass with _bitvector_t_ hides the protocol; unrelated subclasses of BitVectorProtocol are subclasses of each other. Everything else is proved."
  },
  {
   "property": "C103",
   "status": "partial",
   "theorems": [
    "C103_vector",
    "C103_tuple",
    "C103_one_writer",
    "C103_locked",
    "C103_lost_update_refuted"
   ],
   "note": "Refuted for two unsynchronised writers: an item assignment loads the whole contents and stores the whole contents, so one of two overlapping assignments to different bits or components can be lost. Everything else is proved. A step is one access to the object's attributes."
  },
  {
   "property": "C104",
   "status": "partial",
   "theorems": [
    "C104_sum",
    "C104_tagged",
    "C104_uniform",
    "C104_one_writer",
    "C104_read_refuted",
    "C104_writers_refuted",
    "C104_interrupt_refuted",
    "C104_sum_read_refuted"
   ],
   "note": "Refuted in four ways: the setter of a TaggedUnion field stores the value and then the tag, the getter reads the tag and then the value, and s[T] reads the value twice, so a reader can be told of a match and handed a value of another class; two overlapping setters, or an exception between the two stores, leave an object whose value is not of the class of its tag's field. Everything else is proved."
  },
  {
   "property": "C105",
   "status": "partial",
   "theorems": [
    "C105_vector_loop",
    "C105_vector",
    "C105_vector_in",
    "C105_vector_in_refuted",
    "C105_symbolic",
    "C105_symbolic_in_refuted",
    "C105_tuple_loop",
    "C105_adt",
    "C105_tuple_in"
   ],
   "note": "Refuted: an int other than 0 and 1 is not looked for (ValueError), in of symbolic vectors raises (pySMT) or always answers True (z3), Tuples have no len and no reversed, Sums and TaggedUnions cannot be iterated. Loop bodies are arbitrary functions on the object that keep its size (and, for Tuples, keep it a Tuple)."
  },
  {
   "property": "C106",
   "status": "partial",
   "theorems": [
    "C106_unsized_loop",
    "C106_unsized_in",
    "C106_unsized_refuted",
    "C106_sized",
    "C106_truth",
    "C106_fields"
   ],
   "note": "Refuted: bool of an unsized class raises, bool(K[0]) is False, sized classes and Sum classes cannot be iterated, list(K) raises. The endless loop is proved for classes whose mixins come last (C67): otherwise K[0] itself may raise."
  },
  {
   "property": "C107",
   "status": "partial",
   "theorems": [
    "C107_reads",
    "C107_acyclic",
    "C107_cycle_refuted",
    "C107_failed",
    "C107_assign",
    "C107_frame",
    "C107_setitem",
    "C107_setattr",
    "C107_setbit",
    "C107_new",
    "C107_tuple",
    "C107_copy",
    "C107_deep",
    "C107_deep_sharing",
    "C107_deep_independent"
   ],
   "note": "Refuted with a field of class object: t[0] = t makes an instance that holds itself. The other theorems are for histories without such fields. copy.deepcopy is modelled with its recursion limit as an argument, and copies immutable leaves too."
  },
  {
   "property": "C108",
   "status": "partial",
   "theorems": [
    "C108_smt_partial",
    "C108_z3_partial",
    "C108_refuted",
    "C108_store"
   ],
   "note": "Refuted when the dividend or the result of a remainder is assigned to: by 0 the concrete remainder is the dividend object itself. Proved for all programs that do not, within the restrictions of C78. The program must be accepted by a checker (MProgSpec.v) that sees only the classes of the inputs and the program text."
  },
  {
   "property": "C109",
   "status": "partial",
   "theorems": [
    "C109_smt_partial",
    "C109_z3_partial",
    "C109_raises",
    "C109_sat_partial",
    "C109_valid_partial",
    "C109_subclass",
    "C109_frame",
    "C109_alias",
    "C109_assign_bit",
    "C109_read_attribute",
    "C109_read_item",
    "C109_construct"
   ],
   "note": "Restricted as C78 and C108: the calls on vectors are those the families share, and dividends and results of remainders are not assigned to. Comparison and hashing of data types (which differ by family), slice assignment, Enum members and Python integers as components are not in the programs. Components are observed by extending the program."
  },
  {
   "property": "C110",
   "status": "proved",
   "theorems": [
    "C110_commutative",
    "C110_associative_refuted",
    "C110_exact",
    "C110_identities",
    "C110_monotone",
    "C110_monotone_conversion",
    "C110_sub_zero",
    "C110_sub_zero_refuted",
    "C110_subtraction",
    "C110_negation",
    "C110_negation_refuted",
    "C110_exact_result",
    "C110_exact_result_refuted",
    "C110_minmax_associative",
    "C110_minmax_lattice",
    "C110_minmax_refuted"
   ],
   "note": "For types with at least two exponent bits (the statement says so; C57-C61 show what happens with one). The refuted variants (associativity and distributivity of + and *, absorption and distributivity of min and max with NaNs, gradual underflow without ieee_compliance, negation in the directed modes) are separate theorems with witnesses."
  },
  {
   "property": "C111",
   "status": "proved",
   "theorems": [
    "C111_close",
    "C111_close_refuted",
    "C111_double",
    "C111_rem",
    "C111_rem_refuted",
    "C111_integral",
    "C111_sqrt"
   ],
   "note": "For types with at least two exponent bits. The statement restricts the first two laws to ieee_compliance; C111_close_refuted and C111_rem_refuted show by witness that the restriction is needed."
  },
  {
   "property": "C112",
   "status": "proved",
   "theorems": [
    "C112_ring",
    "C112_boolean",
    "C112_complement",
    "C112_compare",
    "C112_wrap_refuted",
    "C112_shift",
    "C112_parts",
    "C112_division",
    "C112_ite",
    "C112_transfer"
   ],
   "note": "The laws are equations between expressions of API calls (LawSpec.v), evaluated in the three family models; division laws for the unsigned classes (the families differ on signed // and %, C31), slices with 0 <= i < j <= n. C112_wrap_refuted lists equations that fail."
  },
  {
   "property": "C113",
   "status": "proved",
   "theorems": [
    "C113_program",
    "C113_numbers",
    "C113_mixed_refuted",
    "C113_signed",
    "C113_keeps",
    "C113_no_unsized",
    "C113_which",
    "C113_statement",
    "C113_modified",
    "C113_modified_refuted"
   ],
   "note": "The derived classes define no methods of their own; ite is left out. C113_mixed_refuted: with signed and unsigned classes mixed, class Byte(BitVector[8]): Byte(128) >> SIntVector[8](1) shifts in zeros where BitVector[8](128) >> SIntVector[8](1) shifts in the sign. C113_modified_refuted: M(BitVector[8])(5)[0:4] raises AttributeError."
  },
  {
   "property": "C114",
   "status": "proved",
   "theorems": [
    "C114_sum",
    "C114_two_sum",
    "C114_two_sum_refuted",
    "C114_difference",
    "C114_sum_refuted",
    "C114_product",
    "C114_product_refuted",
    "C114_quotient",
    "C114_compliance_refuted"
   ],
   "note": "RNA rounds away from zero in these types (C60), so only RNE is rounding to nearest. C114_sum_refuted, C114_two_sum_refuted (x' may overflow although the sum does not), C114_product_refuted and C114_compliance_refuted show that the hypotheses on mode, size and ieee_compliance are needed."
  },
  {
   "property": "C115",
   "status": "proved",
   "theorems": [
    "C115_directed",
    "C115_directed_fma",
    "C115_directed_sqrt",
    "C115_product",
    "C115_sum",
    "C115_quotient",
    "C115_sqrt",
    "C115_double_rounding_refuted",
    "C115_directions_refuted",
    "C115_fma_refuted"
   ],
   "note": "C115_fma_refuted: fma to nearest is not among the operations. C115_double_rounding_refuted and C115_directions_refuted show that the room and the equal directions are needed."
  },
  {
   "property": "C116",
   "status": "proved",
   "theorems": [
    "C116_smt",
    "C116_z3",
    "C116_int",
    "C116_negative",
    "C116_object_refuted"
   ],
   "note": "C116_object_refuted shows where the families differ."
  },
  {
   "property": "C117",
   "status": "proved",
   "theorems": [
    "C117_class",
    "C117_variables",
    "C117_z3_variables",
    "C117_variables_meaning",
    "C117_meaning",
    "C117_fp",
    "C117_name_refuted"
   ],
   "note": "Classes are those of the library, not user-defined subclasses. How pySMT and z3 print a formula is an argument of the theorems; str of a pySMT formula abbreviates deep ones, so the hypothesis of C117_meaning is about the two formulas at hand. C117_name_refuted shows that the hypothesis on names is needed."
  },
  {
   "property": "C118",
   "status": "proved",
   "theorems": [
    "C118_hashable",
    "C118_subclass",
    "C118_silent"
   ],
   "note": "The numbers are left to functions: C21, C45 and C83 say which are equal. Enum members are taken to have hashable values. A tuple that has been assigned to is the finding of C40."
  }
 ]
}