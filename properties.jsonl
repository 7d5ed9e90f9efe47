{"id": "C01", "title": "Every bit-vector object stays in range", "statement": "Whatever sequence of constructor calls, operators, method calls and item assignments a program performs, every live BitVector/UIntVector/SIntVector object x satisfies 0 <= x.as_uint() < 2**x.size, and its class never changes.", "quantifier": "every finite program over the concrete bit-vector API (any widths, any Python arguments, including calls that raise)", "why_tests_cant": "the claim ranges over all histories of calls and all widths; tests run a handful of fixed histories at widths 1..8", "anchors": ["hwtypes/bit_vector.py: BitVector.__init__, BitVector.__setitem__, all bv* methods"]}
{"id": "C02", "title": "Integer construction is reduction modulo 2**n", "statement": "T[n](v).as_uint() == v mod 2**n for every Python int v, negative or wider than n; bools and Bits give 0/1; objects with __int__ go through int(); other objects raise TypeError.", "quantifier": "all widths n >= 0, all integers v, all argument kinds", "why_tests_cant": "infinitely many integers and widths", "anchors": ["hwtypes/bit_vector.py: BitVector.__init__"]}
{"id": "C03", "title": "Bit-list round trip", "statement": "x.bits()[i] is bit i of x, T[n](x.bits()) == x, T[n](l).bits() is the truth values of l for every 0/1 or truthy list l of length n; as_bool_list and binary_string agree with bits().", "quantifier": "all widths, all values, all lists", "why_tests_cant": "unbounded list lengths", "anchors": ["hwtypes/bit_vector.py: seq2int, int2seq, bits, as_bool_list, binary_string"]}
{"id": "C04", "title": "Signed reading is two's complement", "statement": "For n >= 1, x.as_sint() is the unique integer in [-2**(n-1), 2**(n-1)) congruent to x.as_uint() modulo 2**n; int(x) is as_sint for SIntVector and as_uint otherwise; SIntVector[n](x.as_sint()) == x.", "quantifier": "all widths n >= 1 and all values", "why_tests_cant": "unbounded widths", "anchors": ["hwtypes/bit_vector.py: as_sint, as_uint, __int__"]}
{"id": "C05", "title": "Addition, subtraction, multiplication and negation are modular", "statement": "x+y, x-y, x*y, -x have the left operand's class and their unsigned value is the integer result modulo 2**n.", "quantifier": "all widths, all pairs of values, all coercible right operands", "why_tests_cant": "unbounded operands", "anchors": ["hwtypes/bit_vector.py: bvadd, bvsub, bvmul, bvneg"]}
{"id": "C06", "title": "Bitwise operators act bit by bit", "statement": "Bit i of ~x, x&y, x|y, x^y and of bvnand/bvnor/bvxnor is the Boolean function of bit i of the operands, for every i < n.", "quantifier": "all widths, values and bit positions", "why_tests_cant": "unbounded widths", "anchors": ["hwtypes/bit_vector.py: bvnot, bvand, bvor, bvxor", "hwtypes/bit_vector_abc.py: bvnand, bvnor, bvxnor"]}
{"id": "C07", "title": "Shifts saturate", "statement": "x<<y, x.bvlshr(y) and x.bvashr(y) equal multiplication/floor division by 2**y modulo 2**n; a shift amount >= n gives 0 (or the sign fill for bvashr).", "quantifier": "all widths, values, and shift amounts including amounts >= n", "why_tests_cant": "unbounded amounts", "anchors": ["hwtypes/bit_vector.py: bvshl, bvlshr, bvashr"]}
{"id": "C08", "title": "Unsigned division follows SMT-LIB", "statement": "For y != 0, x//y and x%y are quotient and remainder (x = q*y + r, 0 <= r < y); for y == 0 the quotient is all ones and the remainder is x.", "quantifier": "all widths and operand pairs including zero divisors", "why_tests_cant": "division by zero and boundary operands at every width", "anchors": ["hwtypes/bit_vector.py: bvudiv, bvurem"]}
{"id": "C09", "title": "Signed division floors", "statement": "For SIntVector, x//y and x%y are Python's floor quotient and remainder of the signed readings modulo 2**n (INT_MIN // -1 wraps), a = (a//b)*b + a%b holds modulo 2**n, and a zero divisor gives all ones / x.", "quantifier": "all widths n >= 1 and operand pairs", "why_tests_cant": "overflow pair INT_MIN,-1 and zero divisors exist at every width", "anchors": ["hwtypes/bit_vector.py: bvsdiv, bvsrem, SIntVector.__floordiv__, SIntVector.__mod__"]}
{"id": "C10", "title": "Comparisons are the integer orders", "statement": "bvult/ule/ugt/uge compare unsigned readings, bvslt/sle/sgt/sge signed readings, bveq/bvne/bvcomp equality; SIntVector's <,<=,>,>= are signed, the other classes' unsigned.", "quantifier": "all widths and operand pairs", "why_tests_cant": "unbounded pairs", "anchors": ["hwtypes/bit_vector.py: bveq, bvult, bvslt ...", "hwtypes/bit_vector_abc.py: bvsle, bvsgt, bvsge"]}
{"id": "C11", "title": "Concat and slicing compose", "statement": "x.concat(y) has size x.size+y.size and value x + y*2**x.size; x[a:b] reads exactly bits a..b-1; x[:k].concat(x[k:]) == x for every 0 <= k <= n; x[a:b:s] for arbitrary (negative, out-of-range, None) a,b,s reads the same bit positions a Python list slice reads.", "quantifier": "all widths, values and slice triples", "why_tests_cant": "unbounded widths and slice indices", "anchors": ["hwtypes/bit_vector.py: concat, __getitem__"]}
{"id": "C12", "title": "Zero extension preserves the number", "statement": "x.zext(k) for k >= 0 has size n+k and the same unsigned reading; ext is zext for every class except SIntVector; negative k raises ValueError.", "quantifier": "all widths n >= 1, values and amounts", "why_tests_cant": "unbounded widths and amounts", "anchors": ["hwtypes/bit_vector.py: zext, sext, ext"]}
{"id": "C13", "title": "Repeat concatenates copies", "statement": "x.repeat(r) for r >= 1 has size r*n and bit i equal to bit (i mod n) of x; r <= 0 raises ValueError.", "quantifier": "all widths, values, repeat counts", "why_tests_cant": "unbounded counts", "anchors": ["hwtypes/bit_vector.py: repeat"]}
{"id": "C14", "title": "Rotations rotate", "statement": "x.bvrol(k)/x.bvror(k) for n >= 1: bit i of the result is bit (i-k) mod n / (i+k) mod n of x, for every k including k >= n; rol and ror are inverse.", "quantifier": "all widths n >= 1, values, amounts", "why_tests_cant": "unbounded amounts", "anchors": ["hwtypes/bit_vector.py: bvrol, bvror"]}
{"id": "C15", "title": "Add with carry is exact", "statement": "x.adc(y,c) returns (s,co) with s + 2**n*co == x + y + c as integers.", "quantifier": "all widths, values and carries", "why_tests_cant": "unbounded operands", "anchors": ["hwtypes/bit_vector.py: adc"]}
{"id": "C16", "title": "overflow() detects signed overflow", "statement": "overflow(a,b,a+b) is 1 iff the signed sum of a and b does not fit in n bits.", "quantifier": "all widths n >= 1 and operand pairs", "why_tests_cant": "unbounded pairs", "anchors": ["hwtypes/bit_vector.py: overflow"]}
{"id": "C17", "title": "Item assignment changes one bit", "statement": "x[i] = b for -n <= i < n makes bit i (mod n) equal to b, keeps every other bit, the class and size; out-of-range i raises IndexError and leaves x unchanged; non-bit values raise ValueError.", "quantifier": "all widths, values, indices, bits", "why_tests_cant": "unbounded widths", "anchors": ["hwtypes/bit_vector.py: __setitem__, __getitem__"]}
{"id": "C18", "title": "Width mismatch never passes silently", "statement": "Every binary operator and comparison on two bit-vectors of different sizes raises InconsistentSizeError (a TypeError); it never returns a value.", "quantifier": "all operators, kinds, width pairs and values", "why_tests_cant": "all width pairs", "anchors": ["hwtypes/bit_vector.py: _coerce, bv_cast, dispatch_oper"]}
{"id": "C19", "title": "An int operand on the left means the same as the coerced bit-vector", "statement": "k op x == T(k) op x for every operator op, int k and bit-vector x of type T.", "quantifier": "all operators, ints, widths, values", "why_tests_cant": "tests draw random 16-bit values for which both sides of >> are almost always 0", "anchors": ["hwtypes/bit_vector.py: dispatch_roper, __rrshift__"]}
{"id": "C20", "title": "Operators on unsupported objects raise TypeError", "statement": "If an object cannot be converted to a bit-vector, x op obj and obj op x raise TypeError for every arithmetic operator; == and != fall back to identity.", "quantifier": "all operators, kinds and unsupported objects", "why_tests_cant": "open-ended set of argument types", "anchors": ["hwtypes/bit_vector.py: dispatch_oper, dispatch_roper"]}
{"id": "C21", "title": "Hash agrees with equality", "statement": "Objects of one bit-vector class that compare equal hash equal, and the hashed text determines class and value; objects that compare equal across classes hash equal.", "quantifier": "all pairs of bit-vector objects", "why_tests_cant": "all pairs", "anchors": ["hwtypes/bit_vector.py: __hash__, bveq"]}
{"id": "C22", "title": "Bit is the two-element Boolean algebra", "statement": "~,&,|,^,==,!= on Bits (and bool/0/1 operands on either side) compute the Boolean functions and always yield a Bit; ints other than 0/1 raise ValueError.", "quantifier": "all Bits and all operand kinds", "why_tests_cant": "all argument kinds on both sides", "anchors": ["hwtypes/bit_vector.py: Bit, bit_cast"]}
{"id": "C23", "title": "ite selects componentwise", "statement": "Bit(c).ite(t,f) for arbitrarily nested tuples of same-class Bits/BitVectors returns the shape of t with every leaf equal to the leaf of t (c true) or f (c false); branches whose shapes, kinds or sizes differ raise TypeError.", "quantifier": "all nesting depths, shapes, leaves", "why_tests_cant": "unbounded nesting", "anchors": ["hwtypes/bit_vector_util.py: build_ite, determine_return_type, push_ite, coerce_branch", "hwtypes/bit_vector.py: Bit.ite, BitVector.ite"]}
{"id": "C24", "title": "Polymorphic results dispatch on the selector", "statement": "If v = c.ite(a,b) with a,b of different classes of one family and size, then every operator applied to v gives the value the same operator gives on a when c is true and on b when c is false, for arbitrarily nested ite's.", "quantifier": "all nestings of polymorphic types, selectors, operators, values", "why_tests_cant": "unbounded nesting of polymorphic types", "anchors": ["hwtypes/bit_vector_util.py: PolyType, build_VCall, PolyVector"]}
{"id": "C25", "title": "Bit-vector protocol objects survive ite", "statement": "For a user type implementing _bitvector_t_/_from_bitvector_/_to_bitvector_, c.ite(p,q) is _from_bitvector_ of the selected _to_bitvector_.", "quantifier": "all protocol types whose _bitvector_t_ matches, all values", "why_tests_cant": "user-defined types", "anchors": ["hwtypes/bit_vector_util.py: determine_return_type, push_ite"]}
{"id": "C26", "title": "Operators return fresh objects", "statement": "Mutating (by item assignment) the object returned by an operator never changes the value of the operands or of any other object.", "quantifier": "all operators, heaps, later assignments", "why_tests_cant": "aliasing shows only for particular operand values (zero divisor)", "anchors": ["hwtypes/bit_vector.py: bvurem, bvsrem, __setitem__"]}
{"id": "C27", "title": "Implicit sizing keeps the value", "statement": "BitVector(v) for an int v has as_uint() == v when v >= 0, and SIntVector(v) has as_sint() == v.", "quantifier": "all integers", "why_tests_cant": "unbounded ints", "anchors": ["hwtypes/bit_vector_abc.py: AbstractBitVectorMeta.__call__"]}
{"id": "C28", "title": "Mixed-class operators have a determined signedness", "statement": "For operands of equal size and classes K1,K2 in {BitVector,NumVector,UIntVector,SIntVector}, the result class is K1's and the sign-sensitive operators (>>,//,%,<,<=,>,>=) are signed exactly when K1 is SIntVector or K2 is SIntVector and a proper subclass of K1.", "quantifier": "all class pairs, widths, values", "why_tests_cant": "all pairs and values", "anchors": ["hwtypes/bit_vector.py: SIntVector overrides; Python operator dispatch"]}
{"id": "C29", "title": "Sized classes are cached and ordered", "statement": "K[n] is K[n]; K[n].size == n; K[n].unsized_t is K; K1 subclass of K2 implies K1[n] subclass of K2[n] and of K2; K1[n] is not a subclass of K2[m] for m != n; K[n][m] raises TypeError; negative n raises ValueError.", "quantifier": "all class hierarchies built by subclassing, all sizes, all histories of indexing", "why_tests_cant": "unbounded hierarchies and call histories", "anchors": ["hwtypes/bit_vector_abc.py: AbstractBitVectorMeta.__getitem__, __new__"]}
{"id": "C30", "title": "Symbolic operators mean the concrete operators", "statement": "For every assignment of the symbolic variables, evaluating the term built by an SMTBitVector operator gives the value the same BitVector operator computes on the evaluated operands.", "quantifier": "all widths, operand terms, assignments, operators", "why_tests_cant": "solver semantics quantify over all assignments", "anchors": ["hwtypes/smt_bit_vector.py: SMTBitVector methods", "hwtypes/bit_vector.py: BitVector methods"]}
{"id": "C31", "title": "Symbolic signed division matches concrete signed division", "statement": "bvsdiv/bvsrem of SMTSIntVector evaluate to what bvsdiv/bvsrem of SIntVector compute.", "quantifier": "all widths, terms, assignments", "why_tests_cant": "all operand pairs with mixed signs", "anchors": ["hwtypes/smt_bit_vector.py: bvsdiv, bvsrem", "hwtypes/bit_vector.py: bvsdiv, bvsrem"]}
{"id": "C32", "title": "Symbolic construction, indexing, slicing, concat and extension match the concrete family", "statement": "SMTBitVector[n](v), x[i], x[a:b], concat, zext, sext, ext, item assignment, adc, ite evaluate to the concrete results.", "quantifier": "all widths, indices, terms, assignments", "why_tests_cant": "all terms and assignments", "anchors": ["hwtypes/smt_bit_vector.py: __init__, __getitem__, __setitem__, concat, zext, sext, adc"]}
{"id": "C33", "title": "Symbolic repeat matches concrete repeat", "statement": "SMTBitVector.repeat(r)/z3BitVector.repeat(r) returns the r-fold repetition for every r >= 1.", "quantifier": "all widths, counts", "why_tests_cant": "all counts", "anchors": ["hwtypes/smt_bit_vector.py: repeat", "hwtypes/z3_bit_vector.py: repeat"]}
{"id": "C34", "title": "Live symbolic variables have distinct names", "statement": "After any history of creations (by name, by prefix, automatic), failed creations and garbage collections, two live symbolic variables never share a name; automatically generated names are never generated twice in the whole history; a name in use is rejected with ValueError.", "quantifier": "all histories of creations and collections", "why_tests_cant": "unbounded histories and GC timing", "anchors": ["hwtypes/smt_bit_vector.py: _gen_name, SMTBit.__init__, SMTBitVector.__init__", "hwtypes/smt_int.py: SMTInt.__init__"]}
{"id": "C35", "title": "A fresh symbolic variable does not occur in an existing formula", "statement": "A newly created symbolic variable's name differs from every variable occurring in any live formula.", "quantifier": "all histories", "why_tests_cant": "depends on GC of the original variable object", "anchors": ["hwtypes/smt_bit_vector.py: _name_table, _gen_name"]}
{"id": "C36", "title": "Formula constructors mean conjunction, disjunction, implication", "statement": "to_hwtypes() of any tree of And/Or/Implies over SMTBits evaluates to the Boolean meaning of the tree; And([]) is true, Or([]) is false.", "quantifier": "all finite formula trees and assignments", "why_tests_cant": "unbounded trees", "anchors": ["hwtypes/smt_utils.py: And, Or, Implies"]}
{"id": "C37", "title": "SMTInt arithmetic is integer arithmetic", "statement": "+,-,*,neg, comparisons of SMTInt (and int on either side) evaluate to integer arithmetic; as_uint/as_sint of an SMTBitVector evaluate to the unsigned/signed reading.", "quantifier": "all integers, terms, assignments, widths", "why_tests_cant": "all assignments", "anchors": ["hwtypes/smt_int.py: SMTInt", "hwtypes/smt_bit_vector.py: as_uint, as_sint"]}
{"id": "C38", "title": "z3 operators mean the concrete operators", "statement": "For every assignment, terms built by z3BitVector operators evaluate to what BitVector operators compute.", "quantifier": "all widths, terms, assignments", "why_tests_cant": "all assignments", "anchors": ["hwtypes/z3_bit_vector.py: z3BitVector methods"]}
{"id": "C39", "title": "ADT instances are well typed forever", "statement": "Tuple/Product/Sum/TaggedUnion instances hold, after any sequence of constructor calls and item/attribute assignments (successful or raising), exactly the declared number of components, each an instance of its declared field type; a raising assignment leaves the instance unchanged.", "quantifier": "all ADT types, values and operation histories", "why_tests_cant": "unbounded types and histories", "anchors": ["hwtypes/adt.py: Tuple, Sum, TaggedUnion", "hwtypes/util.py: TypedProperty.__set__"]}
{"id": "C40", "title": "Tuple item assignment behaves like rebuilding", "statement": "After t[i] = v, t equals the tuple freshly built with component i replaced, and stays hashable.", "quantifier": "all tuple types, values, indices", "why_tests_cant": "tests compare components only", "anchors": ["hwtypes/adt.py: Tuple.__setitem__, __eq__, __hash__"]}
{"id": "C41", "title": "value_dict/from_values round trip", "statement": "type(x).from_values(x.value_dict) == x for every Tuple, Product, Sum and TaggedUnion instance.", "quantifier": "all types and instances", "why_tests_cant": "all types", "anchors": ["hwtypes/adt.py: value_dict, from_values"]}
{"id": "C42", "title": "enumerate lists every value exactly once", "statement": "For an ADT type built from Enums, Tuples, Products, Sums and TaggedUnions, T.enumerate() yields every instance of T, each exactly once, and nothing else.", "quantifier": "all nested types of any depth", "why_tests_cant": "unbounded nesting", "anchors": ["hwtypes/adt_meta.py: TupleMeta.enumerate, SumMeta.enumerate, TaggedUnionMeta.enumerate, EnumMeta.enumerate"]}
{"id": "C43", "title": "A sum matches one alternative", "statement": "For a Sum instance s and its field types, s[T].match is true exactly for the type of the stored value and s[T].value then returns it; value on an unmatched type raises TypeError; types outside the sum raise TypeError.", "quantifier": "all sums and values", "why_tests_cant": "subclass relations between alternatives", "anchors": ["hwtypes/adt.py: Sum.__getitem__, Sum.Match"]}
{"id": "C44", "title": "A tagged union matches exactly the last assigned tag", "statement": "After any history of attribute assignments exactly one tag matches: the one last successfully assigned, holding the assigned value, even when several tags share a type.", "quantifier": "all tagged unions and histories", "why_tests_cant": "unbounded histories", "anchors": ["hwtypes/adt_meta.py: TaggedUnionMeta._from_fields", "hwtypes/adt.py: TaggedUnion"]}
{"id": "C45", "title": "ADT equality is an equivalence consistent with hash", "statement": "== on ADT instances is reflexive, symmetric and transitive, and equal hashable instances have equal hash.", "quantifier": "all pairs/triples of instances", "why_tests_cant": "all triples", "anchors": ["hwtypes/adt.py: __eq__, __hash__"]}
{"id": "C46", "title": "ADT types are interned", "statement": "Tuple[fields], Sum[fields], Product.from_fields(name, fields) return the identical class for identical arguments while one is alive, and distinct classes for different field sequences (order matters for Tuple and Product, not for Sum and TaggedUnion).", "quantifier": "all histories of type construction and collection", "why_tests_cant": "unbounded histories", "anchors": ["hwtypes/adt_meta.py: _GetitemSyntax._cache_handler, _AttrSyntax._cache_handler"]}
{"id": "C47", "title": "rebind substitutes exactly the matching types", "statement": "T.rebind(A,B) replaces every occurrence of A at every depth by B and nothing else; with rebind_sub_types every subclass of A; T.rebind(A,A) is T; rebinding a type that does not occur returns an equal type.", "quantifier": "all ADT types of any depth, all A,B", "why_tests_cant": "unbounded depth", "anchors": ["hwtypes/adt_meta.py: rebind"]}
{"id": "C48", "title": "rebind_bitvector is the simultaneous substitution", "statement": "rebind_bitvector(T,X,Y) replaces every X[n] by Y[n] (every X by Y) at every depth, regardless of field order, and is idempotent when Y[n] is not rebindable further.", "quantifier": "all ADT types, field orders", "why_tests_cant": "the sequential implementation is order dependent for Sums", "anchors": ["hwtypes/adt_util.py: rebind_bitvector"]}
{"id": "C49", "title": "rebind_type moves a type between families and back", "statement": "rebind_type(rebind_type(T,F2),F1) is T for every ADT over Bit and BitVector[n] of family F1; modified types keep their modifiers.", "quantifier": "all types over a family", "why_tests_cant": "unbounded types", "anchors": ["hwtypes/adt_util.py: rebind_type"]}
{"id": "C50", "title": "Modifiers wrap and unwrap", "statement": "M(T) is M(T); get_modifier(M(T)) is M, get_unmodified(M(T)) is T; M(T) is a subclass of T and of M(S) for every superclass S of T; wrap_modifier(*unwrap_modifier(T)) is T.", "quantifier": "all class hierarchies and modifier stacks", "why_tests_cant": "unbounded hierarchies", "anchors": ["hwtypes/modifiers.py: _ModifierMeta.__call__, unwrap_modifier, wrap_modifier"]}
{"id": "C51", "title": "strip_modifiers removes all modifiers", "statement": "strip_modifiers(T) contains no modifier at any depth, has the same shape, is idempotent and leaves modifier-free types identical.", "quantifier": "all ADT types", "why_tests_cant": "unbounded depth", "anchors": ["hwtypes/modifiers.py: strip_modifiers"]}
{"id": "C52", "title": "push_modifiers moves all modifiers to the leaves", "statement": "push_modifiers(T) has modifiers only on leaves, each leaf carrying its own modifiers followed by those of its ancestors from inside out; strip(push(T)) is strip(T).", "quantifier": "all ADT types and modifier placements", "why_tests_cant": "unbounded depth", "anchors": ["hwtypes/modifiers.py: push_modifiers"]}
{"id": "C53", "title": "Visitors reach every leaf once", "statement": "ADTVisitor visits the leaves of a type in field order, each exactly once per occurrence, dispatching every node to the handler of its own kind; ADTInstVisitor visits exactly the components present in the instance.", "quantifier": "all nested types and instances", "why_tests_cant": "unbounded nesting", "anchors": ["hwtypes/adt_util.py: ADTVisitor, ADTInstVisitor"]}
{"id": "C54", "title": "Frozen dictionaries satisfy the mapping hash contract", "statement": "Equal OrderedFrozenDicts (and equal FrozenDicts) have equal hashes; OrderedFrozenDict equality is order sensitive; equality between the two classes is consistent with hashing.", "quantifier": "all finite maps", "why_tests_cant": "all maps", "anchors": ["hwtypes/util.py: FrozenDict, OrderedFrozenDict"]}
{"id": "C55", "title": "Reserved names are rejected", "statement": "Defining an Enum/Product/TaggedUnion with a reserved field name raises ReservedNameError, any other non-dunder, non-descriptor field of the field type becomes a field, in order.", "quantifier": "all namespaces", "why_tests_cant": "all namespaces", "anchors": ["hwtypes/adt_meta.py: _AttrSyntax.__new__, from_fields"]}
{"id": "C56", "title": "Floating-point bit patterns round trip", "statement": "For an IEEE-compliant FPVector type, reinterpret_as_bv(reinterpret_from_bv(b)) == b for every bit pattern b that is not a NaN, and every NaN pattern gives a NaN pattern.", "quantifier": "all exponent/mantissa sizes and all bit patterns", "why_tests_cant": "2**(1+eb+mb) patterns for every eb,mb", "anchors": ["hwtypes/fp_vector.py: reinterpret_from_bv, reinterpret_as_bv"]}
{"id": "C57", "title": "Floating-point values round trip", "statement": "FT.reinterpret_from_bv(x.reinterpret_as_bv()) has exactly the value (and sign of zero) of x for every non-NaN x representable in FT.", "quantifier": "all formats and representable values", "why_tests_cant": "all values", "anchors": ["hwtypes/fp_vector.py: reinterpret_from_bv, reinterpret_as_bv, __init_subclass__"]}
{"id": "C58", "title": "The context range is the IEEE range", "statement": "The values representable under the precision/emin/emax chosen for FT are exactly the values denoted by FT's finite bit patterns.", "quantifier": "all exponent and mantissa sizes", "why_tests_cant": "all formats", "anchors": ["hwtypes/fp_vector.py: __init_subclass__"]}
{"id": "C59", "title": "Every float has exactly one class", "statement": "Exactly one of fp_is_zero, fp_is_subnormal, fp_is_normal, fp_is_infinite, fp_is_NaN holds for every value.", "quantifier": "all formats and values", "why_tests_cant": "all values", "anchors": ["hwtypes/fp_vector.py: fp_is_normal, fp_is_subnormal, fp_is_zero, fp_is_infinite, fp_is_NaN"]}
{"id": "C60", "title": "Arithmetic is correctly rounded in the chosen mode", "statement": "For every RoundingMode, the result of converting an exact value is the representable value IEEE-754 prescribes for that mode.", "quantifier": "all formats, modes, exact values", "why_tests_cant": "all values", "anchors": ["hwtypes/fp_vector.py: _mode_2_gmpy2, __init__"]}
{"id": "C61", "title": "abs and neg only touch the sign", "statement": "fp_abs clears the sign bit and fp_neg flips it, leaving exponent and mantissa bits unchanged.", "quantifier": "all formats and non-NaN values", "why_tests_cant": "all values incl. signed zeros", "anchors": ["hwtypes/fp_vector.py: fp_abs, fp_neg"]}
{"id": "C62", "title": "Non-compliant formats flush", "statement": "With ieee_compliance False, denormal patterns decode to a zero of the same sign and NaN patterns to an infinity; no value is a NaN or subnormal.", "quantifier": "all formats and patterns", "why_tests_cant": "all patterns", "anchors": ["hwtypes/fp_vector.py: __init__, reinterpret_from_bv"]}
{"id": "C63", "title": "Symbolic floating-point methods are well formed", "statement": "Every method of AbstractFPVector on an SMTFPVector returns a term of the declared sort when given arguments of the type.", "quantifier": "all methods and formats", "why_tests_cant": "all methods/formats", "anchors": ["hwtypes/smt_fp_vector.py: _SIGS, to_sbv, to_ubv, fp_min, fp_max"]}
{"id": "C64", "title": "substitute replaces variables simultaneously", "statement": "x.substitute((a,b),...) evaluates, under any assignment, to x evaluated with each a's variable bound to b's value.", "quantifier": "all terms, substitutions, assignments", "why_tests_cant": "all terms", "anchors": ["hwtypes/smt_bit_vector.py: substitute"]}
{"id": "C65", "title": "Symbolic ite and polymorphic dispatch are semantic", "statement": "SMTBit c.ite(t,f) evaluates componentwise to t or f; operators on symbolic polymorphic values evaluate to the operator of the selected class.", "quantifier": "all terms, assignments, nestings", "why_tests_cant": "all assignments", "anchors": ["hwtypes/bit_vector_util.py: build_ite, build_VCall", "hwtypes/smt_bit_vector.py: SMTBit.ite"]}
{"id": "C66", "title": "Sign extension preserves the number", "statement": "x.sext(k) for every k >= 0 has size n+k and the same signed reading; ext is sext for SIntVector; negative k raises ValueError.", "quantifier": "all widths n >= 1, values and amounts", "why_tests_cant": "unbounded widths and amounts", "anchors": ["hwtypes/bit_vector.py: sext, SIntVector.ext"]}
{"id": "C67", "title": "Every unsized class can be indexed", "statement": "K[n] exists for every unsized bit-vector class K and n >= 0, inherits like K does (its method resolution order is K's with X[n] in front of each bit-vector class X), and whether K[i] is accepted depends only on i.", "quantifier": "all class hierarchies (diamonds, mixins), all sizes, all histories", "why_tests_cant": "method resolution of unbounded hierarchies", "anchors": ["hwtypes/bit_vector_abc.py: AbstractBitVectorMeta.__getitem__, __new__"]}
{"id": "C68", "title": "A polymorphic class has the most specific common bases", "statement": "The bases chosen for the class of c.ite(x, y) are exactly the most specific classes above both operand classes, each once; every class above both is above one of them.", "quantifier": "all class hierarchies, all pairs of classes", "why_tests_cant": "unbounded hierarchies", "anchors": ["hwtypes/bit_vector_util.py: _get_common_bases"]}
{"id": "C69", "title": "random draws every value, uniformly", "statement": "T.random(width) returns an object of T[width] whose number is the number drawn from random.randint over exactly the range of T[width]; every value is drawn for exactly one outcome.", "quantifier": "all classes, widths and outcomes of the random source", "why_tests_cant": "all widths and outcomes", "anchors": ["hwtypes/bit_vector.py: BitVector.random, UIntVector.random, SIntVector.random"]}
{"id": "C70", "title": "Floating-point comparisons are the order of the numbers", "statement": "<, <=, >, >=, ==, != (and fp_lt, ...), fp_is_negative and fp_is_positive on non-NaN values are the order of the exact values with the infinities at the ends and both zeros equal; with a NaN everything is false except !=; an operand of another floating-point type raises TypeError and a plain number is first converted to the type.", "quantifier": "all formats with at least two exponent bits, all reachable values", "why_tests_cant": "all pairs of values of all formats", "anchors": ["hwtypes/fp_vector.py: fp_leq, fp_lt, fp_geq, fp_gt, fp_eq, fp_is_negative, fp_is_positive, _coerce, fp_cast"]}
{"id": "C71", "title": "Floating-point arithmetic is the exact result rounded once", "statement": "On finite values fp_add, fp_sub, fp_mul, fp_div, fp_fma give the exact result rounded once in the direction of the type; fp_rem is x - k*y with k the nearest integer to x/y; fp_round_to_integral is the integer in the direction of the type; fp_min and fp_max return an operand; NaN operands and invalid operations give a NaN (an infinity without ieee_compliance); division of a nonzero number by zero gives the infinity of the right sign.", "quantifier": "all formats with at least two exponent bits, all rounding directions, all reachable values", "why_tests_cant": "all pairs and triples of values of all formats", "anchors": ["hwtypes/fp_vector.py: fp_add, fp_sub, fp_mul, fp_div, fp_fma, fp_rem, fp_round_to_integral, fp_min, fp_max"]}
{"id": "C72", "title": "Symbolic floating-point operations are functions, independent of each other", "statement": "The value of a method call on SMTFPVector values depends only on the values of the operands, whatever classes and variables were created before; distinct methods, and methods of classes of different names, can be interpreted by any functions chosen independently; the operators are the methods and != is the complement of ==.", "quantifier": "all histories of class creation, collection, variables and conversions, all methods, all interpretations", "why_tests_cant": "all histories and interpretations", "anchors": ["hwtypes/smt_fp_vector.py: _SIGS, SMTFPVector.__init_subclass__, fp_add and the other methods, __add__ and the other operators"]}
{"id": "C73", "title": "Square root is correctly rounded", "statement": "fp_sqrt of a positive finite value is the real square root rounded once in the direction of the type (a rational root is the number that is rounded); zeros and +infinity are their own roots; negative numbers and NaNs give a NaN (+infinity without ieee_compliance).", "quantifier": "all formats with at least two exponent bits, all reachable values, all rounding modes", "why_tests_cant": "all values of all formats; irrational roots", "anchors": ["hwtypes/fp_vector.py: fp_sqrt"]}
{"id": "C74", "title": "Conversion of a floating-point value to a bit vector", "statement": "to_ubv(n)/to_sbv(n) give the value as an integer modulo 2^n: exactly if the value is an integer, one of the two neighbouring integers otherwise; an integer that fits is read back by as_uint/as_sint; NaN and negative sizes raise ValueError, infinities OverflowError.", "quantifier": "all formats with at least two exponent bits, all reachable values, all sizes", "why_tests_cant": "all values and sizes", "anchors": ["hwtypes/fp_vector.py: to_ubv, to_sbv"]}
{"id": "C75", "title": "Random floating-point values are normal numbers of the drawn sign, exponent and mantissa", "statement": "FPVector.random(allow_inf=False) is the normal number with the drawn sign, exponent and mantissa, so never an infinity.", "quantifier": "all formats, all draws", "why_tests_cant": "all outcomes of the random source", "anchors": ["hwtypes/fp_vector.py: random"]}
{"id": "C76", "title": "Floating-point types are cached and ordered", "statement": "K[eb,mb,mode,c] is the same class each time; its exponent_size, mantissa_size, mode, ieee_compliance, size and unbound_t are eb, mb, mode, c, 1+eb+mb and K; K1[f] is a subclass of K2[g] iff K1 is a subclass of K2 and f = g; a class statement inherits the format of its bound bases and bases of different formats raise TypeError; indexing a bound type raises TypeError, sizes that are not positive ValueError, other tuples IndexError.", "quantifier": "all class hierarchies, formats and histories of class statements, indexing and collection", "why_tests_cant": "unbounded hierarchies and call histories", "anchors": ["hwtypes/fp_vector_abc.py: AbstractFPVectorMeta.__new__, __getitem__, size, unbound_t, exponent_size, mantissa_size, mode, ieee_compliance"]}
{"id": "C77", "title": "Every unbound floating-point class can be indexed", "statement": "K[f] exists for every unbound floating-point class K and valid format f, its method resolution order is K's with X[f] in front of each floating-point class X, and whether K[i] is accepted depends only on i.", "quantifier": "all class hierarchies, formats, histories", "why_tests_cant": "method resolution of unbounded hierarchies", "anchors": ["hwtypes/fp_vector_abc.py: AbstractFPVectorMeta.__getitem__, __new__"]}
{"id": "C78", "title": "A program means the same in every family", "statement": "The same Python function over BitVector/Bit values - constructors, methods, operators, comparisons, items, slices, concatenation, extensions, item assignment, adc, ite, on results of earlier statements - never raises and computes, when run with SMTBitVector or z3BitVector inputs, terms whose value under every assignment is the result of running it concretely on the values of the inputs; so the two symbolic families agree with each other.", "quantifier": "all straight-line programs, all classes and sizes, all inputs, all assignments, all faithful term simplifiers", "why_tests_cant": "unbounded programs, widths and inputs", "anchors": ["hwtypes/bit_vector.py: BitVector, Bit", "hwtypes/smt_bit_vector.py: SMTBitVector, SMTBit", "hwtypes/z3_bit_vector.py: z3BitVector, z3Bit"]}
{"id": "C79", "title": "Asking the solver is asking about all concrete inputs", "statement": "Run on fresh variables of different names, a Bit computed by a program is satisfiable iff some concrete inputs make the concrete program compute a true Bit there, and valid iff all do.", "quantifier": "all straight-line programs, classes, sizes and names", "why_tests_cant": "all inputs of all widths", "anchors": ["hwtypes/smt_bit_vector.py: SMTBitVector, SMTBit", "hwtypes/z3_bit_vector.py: z3BitVector, z3Bit"]}
{"id": "C80", "title": "Hierarchies of algebraic data types", "statement": "For classes with any number of bases over Tuple, AnonymousProduct, Product, Sum and TaggedUnion: issubclass is reachability through the bases; a subclass of a bound type has that type's fields; K[i] has the fields i and unbound_t K, is the same object every time while it lives, and K[i] is a subclass of L[j] exactly when K is one of L and i is j; an anonymous product is a tuple of its types; a class statement with fields has these fields in this order (products) or as a set (tagged unions), is a subclass of all its bases and of AnonymousProduct[fields] or Sum[types], and has its only algebraic base for unbound_t.", "quantifier": "all class hierarchies, field lists, histories with garbage collection", "why_tests_cant": "unbounded hierarchies and histories; method resolution", "anchors": ["hwtypes/adt_meta.py: BoundMeta, TupleMeta, AnonymousProductMeta, ProductMeta, SumMeta, TaggedUnionMeta, _AttrSyntax, _GetitemSyntax"]}
{"id": "C81", "title": "A field name finds its field", "statement": "For every named type, obj.name is the component that field_dict declares under this name; a subclass without fields has the field_dict and the attributes of its base.", "quantifier": "all class hierarchies, field names, attributes of the bases", "why_tests_cant": "unbounded hierarchies; method resolution", "anchors": ["hwtypes/adt_meta.py: AnonymousProductMeta, ProductMeta, TaggedUnionMeta, field_dict"]}
{"id": "C82", "title": "Members of an enum", "statement": "A class statement (or from_fields) that declares members makes an enum whose members are exactly these: E.n is a member of type E with the name n and the declared value, enumerate() lists them once each in the order of the body and field_dict maps the names to them; the other attributes of the body are attributes of E, and names the body does not mention are looked up in the base; E(x) is x for members of E and TypeError for everything else; .name, .value and repr give the name and the value; members cannot be reached from members.", "quantifier": "all class bodies, all histories of class statements with caching and collection", "why_tests_cant": "unbounded bodies and histories", "anchors": ["hwtypes/adt_meta.py: _AttrSyntax, EnumMeta._from_fields, enumerate, field_dict, __call__", "hwtypes/adt.py: Enum"]}
{"id": "C83", "title": "Equality of members and subclasses of enums", "statement": "Members are equal exactly if their values are and the type of one is a subclass of the type of the other; == is an equivalence relation consistent with != and hash; class F(E) with members is a subclass of E with unbound_t E that keeps what E defines; class F(E) without members has the members of E.", "quantifier": "all hierarchies of enums, all members, all histories", "why_tests_cant": "unbounded hierarchies and histories", "anchors": ["hwtypes/adt.py: Enum.__eq__, __ne__, __hash__", "hwtypes/adt_meta.py: BoundMeta.__new__, EnumMeta._from_fields, unbound_t"]}
{"id": "C84", "title": "rebind_keep_modifiers keeps modifiers", "statement": "rebind_keep_modifiers(T, A, B) replaces every component of T that is a subclass of A by B, at every depth and under the modifiers it has, and changes nothing else.", "quantifier": "all algebraic data types, all A and B", "why_tests_cant": "unbounded depth; the rebinds of the fields happen one after the other", "anchors": ["hwtypes/adt_util.py: rebind_keep_modifiers"]}
{"id": "C85", "title": "Typed properties", "statement": "A property declared in a class body with TypedProperty(T) and any chain of getter, setter and deleter decorators calls, on instances of the class and of every subclass that does not redefine the name, exactly the last getter, setter and deleter that was written; a missing one raises AttributeError; assigning a value that is not an instance of T raises TypeError without calling anything; on classes the name gives T, so decorators cannot be applied there; decorators never change the property they are applied to.", "quantifier": "all declarations, class hierarchies, histories of class statements, decorators, assignments to classes and objects", "why_tests_cant": "unbounded histories and decorator chains", "anchors": ["hwtypes/util.py: TypedProperty"]}
{"id": "C86", "title": "Methods bind and carry their name", "statement": "A function wrapped in Method is found as itself on the class and bound to the object on instances, and its __name__ and __qualname__ say the attribute and the class.", "quantifier": "all class hierarchies, histories of class statements and assignments", "why_tests_cant": "unbounded histories", "anchors": ["hwtypes/util.py: Method"]}
{"id": "C87", "title": "Names of z3 variables", "statement": "No two live z3Bit or z3BitVector variables have the same name; name= with a name in use raises ValueError and changes nothing, any other name is accepted; without name= a variable always gets a new name that no live variable has and that was never generated before; a name with a value, or one that is not a string, raises TypeError.", "quantifier": "all histories of creation of variables and expressions and of garbage collection", "why_tests_cant": "all interleavings with collection", "anchors": ["hwtypes/z3_bit_vector.py: _gen_name, _name_table, _var_counter, z3Bit.__init__, z3BitVector.__init__"]}
{"id": "C88", "title": "A new z3 variable is independent", "statement": "Variables alive together are different z3 constants, and a new variable occurs in no value made before.", "quantifier": "all histories of creation of variables and expressions and of garbage collection", "why_tests_cant": "all interleavings with collection", "anchors": ["hwtypes/z3_bit_vector.py: _gen_name, _name_table, z3Bit.__init__, z3BitVector.__init__"]}
{"id": "C89", "title": "Methods of polymorphic values", "statement": "If v = c.ite(a, b) with a, b of different classes, every method called by name on v (bvadd, bvslt, bvrol, x[i], slices, zext, sext, ext, repeat, concat, x[i] = b, adc, as_uint, as_sint, ...) gives the value, Bits, ints or exception it gives on the selected one; results are of the class of v.", "quantifier": "all nestings of polymorphic types, selectors, methods, arguments, values", "why_tests_cant": "unbounded nesting of polymorphic types", "anchors": ["hwtypes/bit_vector_util.py: PolyType, build_VCall, PolyVector", "hwtypes/bit_vector.py: ext, concat"]}
{"id": "C90", "title": "Truth and equality of symbolic values", "statement": "bool() of a Bit or vector says whether its number is not 0, or raises if the value is symbolic; == of Tuples, Products, Sums and TaggedUnions with symbolic components answers, as a bool or as a symbolic Bit, whether they have the same value under each assignment, or raises; != is its complement.", "quantifier": "all nestings, classes, values, assignments, shared components", "why_tests_cant": "all assignments and nestings", "anchors": ["hwtypes/adt.py: Tuple.__eq__, __ne__, Sum.__eq__, __ne__, TaggedUnion.__eq__", "hwtypes/bit_vector.py: __bool__", "hwtypes/smt_bit_vector.py: SMTBit.__bool__, SMTBitVector.__len__", "hwtypes/z3_bit_vector.py: z3BitVector.__len__"]}
{"id": "C91", "title": "Mixing concrete and symbolic operands", "statement": "An operator or comparison between a concrete Bit or vector and a symbolic one of the same width, in either order, means the operation after converting the concrete operand to the class of the symbolic one; different widths raise InconsistentSizeError.", "quantifier": "all operators, classes, widths, values, terms, assignments", "why_tests_cant": "all widths and assignments", "anchors": ["hwtypes/bit_vector.py: dispatch_oper, bit_cast", "hwtypes/smt_bit_vector.py: _coerce, dispatch_oper, dispatch_roper, bit_cast, SMTBitVector.__init__", "hwtypes/z3_bit_vector.py: _coerce, bit_cast, z3BitVector.__init__"]}
{"id": "C92", "title": "Printed values and class names identify what they print", "statement": "Two values that print alike with repr are the same value of the same class; the names of Bit, the bit-vector classes, and Tuples and AnonymousProducts of them identify the class; str of a bit-vector is the decimal numeral of its number (signed for SIntVector); repr of a value of Bits, vectors and Tuples, evaluated as Python, gives an equal value of the same class; every value can be printed.", "quantifier": "all nestings of types and values, all widths", "why_tests_cant": "unbounded nesting and widths; injectivity is about all pairs", "anchors": ["hwtypes/bit_vector.py: __repr__, __str__", "hwtypes/adt.py: Tuple.__repr__, Product.__repr__, Sum.__repr__, TaggedUnion.__repr__", "hwtypes/adt_meta.py: _name_cb, TupleMeta._name_cb"]}
{"id": "C93", "title": "The text of a formula determines the formula", "statement": "Two trees of And, Or and Implies that serialize alike (same line prefix and indentation) have the same connectives, nested in the same way, over SMTBits that print alike in the same order, and so mean the same; the constructors accept exactly SMTBits and formulas and raise ValueError otherwise.", "quantifier": "all finite formula trees, prefixes and indentations of one line, and leaf texts of one line", "why_tests_cant": "unbounded trees", "anchors": ["hwtypes/smt_utils.py: And, Or, Implies, FormulaConstructor.serialize, _op_to_str, _value_to_str, _check"]}
{"id": "C94", "title": "new makes a new type", "statement": "new(K) always gives a class that did not exist before, with the size, fields and attributes of K, whose superclasses are itself and those of K; new(K, i) gives one with the size or fields i that is below K and below K[i] and has no other superclasses than its own unbound class and those of K[i]; it succeeds whenever K[i] exists; no two calls give the same class.", "quantifier": "all class hierarchies of bit vectors and of algebraic data types, all binds, all histories with garbage collection", "why_tests_cant": "unbounded hierarchies and histories; method resolution", "anchors": ["hwtypes/modifiers.py: new"]}
{"id": "C95", "title": "Conversions between floating-point types and Python numbers", "statement": "K(x) for an int, a float, an exact number, a string, another FPVector or any object that stands for a number is that number rounded once in the direction of K; converting to a type that is at least as wide keeps the number and its sign, and converting back gives the same value; float(x) is the number itself for types that fit into a double, so K(float(x)) is x and x == float(x), and the double in the direction of the type otherwise; strings that are no numbers raise ValueError, other objects TypeError, unbound classes AttributeError.", "quantifier": "all formats with at least two exponent bits, all reachable values, all arguments", "why_tests_cant": "all values of all pairs of formats", "anchors": ["hwtypes/fp_vector.py: FPVector.__init__, __float__, _fp_method_wrapper"]}
{"id": "C96", "title": "The context of a floating-point class", "statement": "Every bound class below FPVector computes with the precision, range, rounding direction and subnormals of its own parameters, however it was made, and so do its subclasses; making a class never fails because of a context inherited from its bases; unbound classes have none.", "quantifier": "all class hierarchies, formats and histories of class statements, indexing and collection", "why_tests_cant": "unbounded hierarchies and histories", "anchors": ["hwtypes/fp_vector.py: FPVector.__init_subclass__"]}
{"id": "C97", "title": "Values as keys", "statement": "A dict (or set) with Bits, bit vectors and ints as keys is a map from values: after d[x] = i, d[y] is i for every y of the class and value that x has, until it is replaced or deleted; keys of other classes or values find other items or raise KeyError; lists raise TypeError; the keys come in the order of insertion.", "quantifier": "all histories of dictionary operations and of calls of the API, all classes and sizes, all hash functions of str and int, all probing orders", "why_tests_cant": "all histories; all hash functions", "anchors": ["hwtypes/bit_vector.py: BitVector.__hash__, Bit.__hash__, Bit.__eq__, bveq, __setitem__"]}
{"id": "C98", "title": "Subscripts of bound types", "statement": "For a bound Tuple, AnonymousProduct or Product T with n fields, T[i] is the i-th field type for -n <= i < n and IndexError otherwise, and T[a:b:c] the tuple of those of the slice; P['x'] is the type of the field x of a Product or AnonymousProduct P and KeyError for other names; S[A] is A for the alternatives of a Sum or TaggedUnion and KeyError for everything else; a subclass without fields answers as its base.", "quantifier": "all class hierarchies, fields, subscripts, all histories with garbage collection", "why_tests_cant": "unbounded hierarchies, histories and numbers of fields", "anchors": ["hwtypes/adt_meta.py: TupleMeta.__getitem__, ProductMeta.__getitem__, SumMeta.__getitem__, SumMeta.__contains__, TaggedUnionMeta.__getitem__"]}
{"id": "C99", "title": "Sized classes made by threads", "statement": "Whatever other threads do at the same time, K[n] raises ValueError for a negative n and TypeError for a sized K, and a class it returns has size n and unsized_t K and is a subclass of K; a class that exists before the threads start, or at any moment at which no thread is evaluating a subscript, is what every thread gets from then on; a thread that is alone gets what the single-threaded program gets. (Also claimed, and refuted: all threads get the same class, the sized classes are ordered like the unsized ones, and K[n] succeeds whenever it would without threads.)", "quantifier": "all histories of class statements, numbers of threads, lists of requests and interleavings", "why_tests_cant": "interleavings of unbounded length; a test sees one schedule", "anchors": ["hwtypes/bit_vector_abc.py: AbstractBitVectorMeta.__getitem__, _class_cache"]}
{"id": "C100", "title": "Methods of symbolic polymorphic values", "statement": "For v = sel.ite(a, b) with an SMTBit sel and symbolic vectors a and b of possibly different classes, every named method of v except ext and concat (logic, arithmetic, shifts, rotations, comparisons, indexing, slices, extensions, item assignment, adc, as_uint, as_sint) evaluates under every assignment of the variables to what it evaluates to on the vector selected there, or raises the same exception; where the symbolic family follows the concrete one on built-in classes it does so on polymorphic ones, with the result in the class of v; v.ext(k) extends with the sign exactly under the assignments that select a signed vector, for every k that is not negative; x.concat(v) for x of a built-in class is accepted exactly if x.concat(a) and x.concat(b) are. (Also claimed, and refuted: v.concat(y) is accepted if the selected class accepts y.)", "quantifier": "all selectors, vectors, classes (polymorphic ones nested to any depth), methods, arguments and assignments", "why_tests_cant": "all terms, nestings and assignments", "anchors": ["hwtypes/smt_bit_vector.py: SMTBitVector, SMTSIntVector.ext", "hwtypes/bit_vector_util.py: PolyBase, build_VCall"]}
{"id": "C101", "title": "Symbolic variables made by threads", "statement": "Whatever any number of threads do, automatic names and names generated from string prefixes are never generated twice, two live variables with such names never share one, a name that only one thread passes as name= and no prefix in use generates is held by at most one live variable, a constructor that is not interrupted does what it does without threads, and a thread running alone always finishes its constructor; with a lock around creations all live variables of one name table have distinct names. (Also claimed, and refuted: live variables made by unsynchronised threads always have distinct names.)", "quantifier": "all numbers of threads, operations they start, interleavings of their steps and moments of collection", "why_tests_cant": "schedules are not enumerable", "anchors": ["hwtypes/smt_bit_vector.py: _gen_name, _name_table, _var_counters, SMTBit.__init__, SMTBitVector.__init__", "hwtypes/smt_int.py: SMTInt.__init__", "hwtypes/smt_fp_vector.py: SMTFPVector.__init__"]}
{"id": "C102", "title": "Types that implement the bit-vector protocol", "statement": "For every hierarchy of classes and metaclasses: issubclass(C, BitVectorProtocol) is True exactly if C's metaclass provides _bitvector_t_ and C provides _from_bitvector_ and _to_bitvector_ (unless the metaclass's own metaclass has _bitvector_t_), isinstance(x, BitVectorProtocol) is issubclass(type(x), BitVectorProtocol), subclasses of types that implement the protocol implement it, later class statements change no answer, and ite accepts two such objects exactly if it converts both and their types are the same. (Also claimed, and refuted: any type that has _bitvector_t_ is an instance of BitVectorProtocolMeta; unrelated subclasses of BitVectorProtocol are not subclasses of each other.)", "quantifier": "all sequences of class statements with any bases, metaclasses and bodies, all objects", "why_tests_cant": "class hierarchies are not enumerable", "anchors": ["hwtypes/bit_vector_util.py: _BitVectorProtocolMetaMeta, BitVectorProtocolMeta, BitVectorProtocol, determine_return_type, push_ite"]}
{"id": "C103", "title": "Vectors, Tuples and Products shared by threads", "statement": "When any number of threads read and assign items of one vector, Tuple or Product object, under every interleaving and wherever exceptions interrupt calls, the object keeps its class and well-typed contents, every bit or component (and every one that is read) is the initial one or one assigned at that place, and the assignment that ended last is visible; with one writing thread, or without overlapping calls, the object and the answers are those of the calls made one at a time. (Also claimed, and refuted: assignments by two threads to different places are both visible in the end.)", "quantifier": "all objects, numbers of threads, call sequences, interleavings and interruptions", "why_tests_cant": "schedules are not enumerable", "anchors": ["hwtypes/bit_vector.py: BitVector.__getitem__, BitVector.__setitem__", "hwtypes/adt.py: Tuple.__getitem__, Tuple.__setitem__", "hwtypes/adt_meta.py: ProductMeta field setters"]}
{"id": "C104", "title": "Sums and TaggedUnions shared by threads", "statement": "Under every interleaving and interruption a Sum holds a value of one of its classes, initial or assigned, and hands out only such values; the tag and the value of a TaggedUnion are each initial or assigned, the value being of the class of some field; if all fields have one class the object is always well typed; with one writing thread that is not interrupted, the object is well typed and what its calls one at a time leave whenever the writer is outside of its calls. (Also claimed, and refuted: a field reported as matching is handed a value of its class; two writers leave a well-typed object; so does an interrupted assignment; s[T] hands out a T when it says so.)", "quantifier": "all Sum and TaggedUnion types, numbers of threads, call sequences, interleavings and interruptions", "why_tests_cant": "schedules are not enumerable", "anchors": ["hwtypes/adt.py: Sum.__getitem__, Sum.__setitem__, TaggedUnion.__setattr__", "hwtypes/adt_meta.py: TaggedUnionMeta field getters and setters"]}
{"id": "C105", "title": "Vectors and ADT instances as Python sequences", "statement": "A for loop over a bit vector or a Tuple runs once for each bit or component, in order of position, and hands out what is stored when its turn comes, also when the body assigns to the vector; list(x) is the bits, K[n](list(x)) is x, reversed(x) the bits from the end and unpacking works exactly for the right number of names; the same for symbolic vectors, whose items have the bits as their values under every assignment; v in x says whether some bit or component is v. Also claimed, and refuted: n in x for an int other than 0 and 1 is False (it is a ValueError unless x has no bits), b in x of symbolic values answers the question (pySMT values raise TypeError, z3 values always answer True), Tuples have a length and can be reversed, Sums can be iterated.", "quantifier": "every vector of every size, every symbolic vector and assignment, every Tuple, every loop body that keeps the size, every operand of in", "why_tests_cant": "Loops that change the object they run over, all sizes and all bodies; the symbolic half speaks about all assignments.", "anchors": ["hwtypes/bit_vector.py:BitVector.__getitem__", "hwtypes/bit_vector.py:BitVector.__len__", "hwtypes/smt_bit_vector.py:SMTBitVector.__getitem__", "hwtypes/z3_bit_vector.py:z3BitVector.__getitem__", "hwtypes/adt.py:Tuple.__getitem__"]}
{"id": "C106", "title": "Classes as Python sequences", "statement": "len(K[n]) is n and bool(K[n]) is n != 0; iterating over a bound Tuple or Product class gives its field types in order, and unpacking and in follow. A for loop over an unsized bit-vector class hands out K[0], K[1], ..., all different, and never ends by itself, whatever other classes the body makes, drops or collects; K[n] in K is True, and x in K never answers for another x. Also claimed, and refuted: every class is true (an unsized class raises AttributeError, K[0] is false), a sized class can be iterated (TypeError), list(K) and reversed(K) of an unsized class behave as the loop (AttributeError), Sum and TaggedUnion classes can be iterated (KeyError).", "quantifier": "every history of class statements, indexing, dropped references and collections, every class, every loop body, every number of steps", "why_tests_cant": "An endless loop cannot be tested, and the statement ranges over all class hierarchies and bodies.", "anchors": ["hwtypes/bit_vector_abc.py:AbstractBitVectorMeta.__getitem__", "hwtypes/bit_vector_abc.py:AbstractBitVectorMeta.__len__", "hwtypes/adt_meta.py:TupleMeta.__getitem__", "hwtypes/adt_meta.py:SumMeta.__getitem__"]}
{"id": "C107", "title": "Objects that share components", "statement": "An ADT instance holds the objects it was given. Every object can be read to its leaves, and in one way only. An assignment to an object (an item, a slice or an attribute of an instance, a bit of a vector) is seen through every object that holds it, in every place where it occurs, and through no other object; a rejected assignment changes nothing. copy.copy of an instance shares its components: it sees assignments to them, not to the original. copy.deepcopy of an instance reads the same, has the same sharing inside, shares nothing with the objects that existed before, and neither side sees assignments to the other. Also claimed, and refuted: no object can be made to hold itself (with a field of class object it can).", "quantifier": "every history of constructions, assignments and copies on any number of objects, every sharing among them", "why_tests_cant": "The statement ranges over all object graphs and histories; tests use trees.", "anchors": ["hwtypes/adt.py:Tuple.__init__", "hwtypes/adt.py:Tuple.__setitem__", "hwtypes/adt.py:Sum.__setitem__", "hwtypes/adt_meta.py:ProductMeta", "hwtypes/adt_meta.py:TaggedUnionMeta", "hwtypes/bit_vector.py:BitVector.__setitem__"]}
{"id": "C108", "title": "Programs that assign bits in place mean the same in every family", "statement": "A program that makes calls, lets several variables refer to one vector and assigns bits in place (x[i] = b) runs without an exception in the pySMT and z3 families, and under every assignment of the symbolic variables every variable ends up holding what the concrete program leaves in it: an assignment is seen through the same variables in every family. Also claimed, and refuted: this holds when the program assigns to a vector that was divided with % or to the result of % (the concrete remainder by 0 is the dividend object itself, so both change; the symbolic ones are different objects).", "quantifier": "every program accepted by the checker, of any length, every input and assignment, every aliasing among variables", "why_tests_cant": "The statement ranges over all programs and inputs; the difference only shows when a divisor is zero and its remainder is assigned to.", "anchors": ["hwtypes/bit_vector.py:BitVector.__setitem__", "hwtypes/bit_vector.py:BitVector.bvurem", "hwtypes/smt_bit_vector.py:SMTBitVector.__setitem__", "hwtypes/z3_bit_vector.py:z3BitVector.__setitem__"]}
{"id": "C109", "title": "Programs over algebraic data types mean the same in every family", "statement": "A program that makes calls on vectors and Bits, constructs Tuples, Products, Sums and TaggedUnions over the classes of one family, reads and assigns their components and assigns bits in place behaves alike in the concrete, pySMT and z3 families: either it raises the same exception in all of them for all inputs, or it succeeds in all of them, every variable has the same class up to the family, and under every assignment of the symbolic variables every vector or Bit stands for the concrete one - so that objects are shared between data structures in the same way. issubclass between types gives the same answer in every family.", "quantifier": "every program of any length accepted by the checker, every input, every assignment, every data type over the classes of the family, every issubclass relation between user classes", "why_tests_cant": "Programs, types, sharing and assignments are unbounded; tests run a given data structure in one family.", "anchors": ["hwtypes/adt.py:Tuple", "hwtypes/adt.py:Sum", "hwtypes/adt.py:TaggedUnion", "hwtypes/adt_meta.py:ProductMeta", "hwtypes/adt_meta.py:TaggedUnionMeta", "hwtypes/smt_bit_vector.py:SMTBitVector", "hwtypes/z3_bit_vector.py:z3BitVector"]}
{"id": "C110", "title": "Laws of floating-point arithmetic", "statement": "For values of one FPVector type with at least two exponent bits, in every rounding mode: + , *, min, max and the factors of fma commute, whatever the operands; min and max are associative, whatever the operands, and without NaNs idempotent, absorbing and distributive; x - y is x + (-y) and -(-x) is x (a NaN if x is one), whatever the operands; if the exact result of +, -, *, / or fma is a value of the type, that is the result; two of these operations (or conversions) on finite values with the same exact result other than zero give the same object, so fma(x, 1, y) is x + y and x + x is x * 2; x * 1, x / 1 are x, x + 0 and x - 0 are x for nonzero x, x - x and x + (-x) are zeros and x / x is 1; for x <= y, x + w <= y + w, x - w <= y - w, w - y <= w - x, and for positive w x * w <= y * w and x / w <= y / w; conversion of exact numbers is monotone; with ieee_compliance x - y is a zero exactly if x == y; to nearest, away from zero and toward zero negating the operands negates the result. What must not be used, because it fails: associativity and distributivity of + and *, absorption and distributivity of min and max with a NaN, the same sign for zeros that are the exact result of different operations, the zero test x - y without ieee_compliance, and y - x for -(x - y) when rounding up or down.", "quantifier": "all types with at least two exponent bits, all values a program can get hold of, all rounding modes", "why_tests_cant": "unbounded formats, and all pairs and triples of values", "anchors": ["hwtypes/fp_vector.py: FPVector.fp_neg, fp_add, fp_sub, fp_mul, fp_div, fp_fma, fp_min, fp_max, fp_eq, fp_leq, fp_is_zero, __init__", "hwtypes/fp_vector_abc.py: RoundingMode"]}
{"id": "C111", "title": "Floating-point operations that are exact", "statement": "For values of one FPVector type with at least two exponent bits, in every rounding mode: with ieee_compliance x - y is exact for numbers of one sign within a factor of two of each other, and x.fp_rem(y) is exactly x - k*y for the integer k nearest to x/y; x + x and 2 * x are exact unless they exceed the range; fp_round_to_integral returns the integer itself without rounding it again, or an infinity if the integer is above the range, and returns x if x is an integer; fp_sqrt of the square of a positive value of the type is that value. Without ieee_compliance a small difference or remainder can be lost.", "quantifier": "all types with at least two exponent bits, all values a program can get hold of, all rounding modes", "why_tests_cant": "unbounded formats, and all pairs of values", "anchors": ["hwtypes/fp_vector.py: FPVector.fp_add, fp_sub, fp_mul, fp_rem, fp_sqrt, fp_round_to_integral", "hwtypes/fp_vector_abc.py: RoundingMode"]}
{"id": "C112", "title": "The algebra of bit-vectors", "statement": "For every width and every class: vectors of one class are a commutative ring under + and *, with - as its inverse, and a Boolean algebra under &, |, ~ and ^; -x is ~x + 1, x - y is the adder on x and ~y with carry 1, x + y is (x | y) + (x & y) and (x ^ y) + ((x & y) << 1); the comparisons are one total order, x == y exactly if x - y == 0, unsigned x < y exactly if x - y has no carry, signed order is unsigned order with the sign bits flipped; shifts by k are multiplication and unsigned division by 2**k, rotations are pairs of shifts; slices commute with bitwise operators and low slices with + and *, concat and slice are inverse; (x // y) * y + x % y is x, also for y = 0, unsigned; ite selects. Every equation holds of concrete vectors for all values and of symbolic vectors in both families under every assignment, and an equation the checker accepts holds of all concrete values exactly if a solver finds the two terms on fresh variables equal. What must not be used, because it wraps: x < y for the sign of x - y, x < x + y for 0 < y, (x * y) // y for x.", "quantifier": "all widths, all classes, all values, all assignments, all faithful simplifiers", "why_tests_cant": "unbounded widths and all triples of values, in three implementations", "anchors": ["hwtypes/bit_vector.py: BitVector operators, adc, concat, ext methods, Bit.ite", "hwtypes/smt_bit_vector.py: SMTBitVector, SMTBit", "hwtypes/z3_bit_vector.py: z3BitVector, z3Bit"]}
{"id": "C113", "title": "Vectors of user-defined classes", "statement": "Let K be an unsized class derived from BitVector (class K(UIntVector): pass, also with mixin classes after the bit-vector bases). A program over vectors of K[n] for any sizes gives the values, Bits and exceptions of the same program over SIntVector[n] if K is derived from SIntVector and over BitVector[n] otherwise, and all its vectors are again of classes K[m]. For vectors of any classes derived from BitVector that are all below SIntVector or all not, whatever a program computes without an exception is what it computes on the plain vectors. The operators, ~, - and item assignment keep the class of the left operand. A sized class that is not K[n] for any K - one of a class statement such as class Byte(BitVector[8]), or M(BitVector[8]) for a modifier M - has no unsized_t: slices, concat, extensions, rotations, bvcomp and adc of its instances raise AttributeError, while M(T) otherwise is a subclass of T of its size.", "quantifier": "all class hierarchies and histories of class statements, indexing and collection, all programs, classes, sizes and values", "why_tests_cant": "unbounded hierarchies, programs and widths", "anchors": ["hwtypes/bit_vector.py: BitVector, NumVector, UIntVector, SIntVector, dispatch_oper, dispatch_roper, concat, zext, sext, bvrol, bvror, bvcomp, adc, __getitem__", "hwtypes/bit_vector_abc.py: AbstractBitVectorMeta.__new__, __getitem__, unsized_t, size", "hwtypes/modifiers.py: _ModifierMeta.__call__"]}
{"id": "C114", "title": "Rounding errors can be computed", "statement": "For values of one FPVector type with ieee_compliance and at least two exponent bits: when rounding to nearest, the error (x + y) - s of a sum s that does not overflow is a value of the type, and if |y| <= |x| it is y - (s - x) with both subtractions exact, and without that comparison it is (x - x') + (y - (s - x')) for x' = s - y, with only x' rounded, as long as x' does not overflow, and for a difference the same holds with -y for y; in every rounding mode the error of a product z within the range that is not too small (a whole multiple of some value of the type) is x.fma(y, -z) exactly; in every rounding mode, for a quotient z of x by y within the range whose product with y is a whole multiple of a value not above the quotient, the remainder x - z*y is (-z).fma(y, x) exactly. What must not be used, because it fails: the error of a sum in the other rounding modes (it need not be a value), the last formula when only s is known not to overflow, the error of a product that is too small, and the error of a sum without ieee_compliance.", "quantifier": "all types with ieee_compliance and at least two exponent bits, all values a program can get hold of, all rounding modes (nearest for sums)", "why_tests_cant": "unbounded formats, and all pairs of values", "anchors": ["hwtypes/fp_vector.py: FPVector.fp_add, fp_sub, fp_mul, fp_div, fp_fma, fp_neg", "hwtypes/fp_vector_abc.py: RoundingMode"]}
{"id": "C115", "title": "Computing in a wider type and converting back", "statement": "For FPVector types F and G with at least two exponent bits and finite values x, y of F: if G has every value of F and both round in the same direction other than to nearest, F(G(x) op G(y)) is x op y for + - * / (divisor not zero), fma and sqrt (of a positive number). If G has at least two exponent bits more, at least 2m + 3 mantissa bits for the m of F, and ieee_compliance, F(G(x) * G(y)) is x * y whatever the two rounding modes, and F(G(x) + G(y)) and F(G(x) - G(y)) are x + y and x - y when F rounds to nearest, whatever the mode of G, and, if F has ieee_compliance too, F(G(x) / G(y)) is x / y, and with one mantissa bit more F(G(x).fp_sqrt()) is x.fp_sqrt() for positive x; so half precision may be computed in single (square roots excepted) and single in double. (The sign of a zero result that is exact is left open.) What must not be used, because it fails: rounding to nearest twice with only two bits more, fma to nearest computed in a type with 2m + 3 mantissa bits, and two different directions.", "quantifier": "all pairs of types with the stated sizes, all finite values a program can get hold of, all rounding modes as stated", "why_tests_cant": "unbounded formats, all pairs of values, and two roundings in sequence", "anchors": ["hwtypes/fp_vector.py: FPVector.__init__, fp_add, fp_sub, fp_mul, fp_div, fp_fma, fp_sqrt, fp_eq", "hwtypes/fp_vector_abc.py: RoundingMode"]}
{"id": "C116", "title": "Constants of the symbolic families", "statement": "x.make_constant(v, n) (n defaulting to the size of x, at least 1) on a symbolic vector x gives a vector of the kind of x and of n bits which, under every assignment, is what make_constant of the concrete family gives for the value of v: for an integer v, v mod 2**n in all three families, whatever x is. A negative size raises ValueError in all of them. What must not be used, because it fails: an object with __int__ whose number does not fit raises ValueError in the SMT family and is reduced in the others.", "quantifier": "all vectors of the three families, all sizes from 1, all convertible values, all faithful simplifiers", "why_tests_cant": "unbounded sizes, integers and assignments", "anchors": ["hwtypes/smt_bit_vector.py: SMTBitVector.make_constant", "hwtypes/z3_bit_vector.py: z3BitVector.make_constant", "hwtypes/bit_vector.py: BitVector.make_constant"]}
{"id": "C117", "title": "Printed symbolic and floating-point values", "statement": "Symbolic values (SMTBit, SMT vectors, SMTInt, z3Bit, z3 vectors) that print alike with repr are of the same class; live variables of one family that print alike are one object, after any history of creations and collections and whatever they were named; values that print alike stand for the same number under every assignment, provided the solver library prints their formulas differently when they differ and prints the names of the variables among them as they are. FPVectors that print alike are of the same format, and equal in value if gmpy2 prints their values apart. What must not be used, because it fails: that the text identifies the value when variables have arbitrary names - a variable can be named like the text of a constant and then prints like that constant.", "quantifier": "all values and classes of the two symbolic families, all names, all histories, every printing function of the solver library", "why_tests_cant": "unbounded names, formulas and histories", "anchors": ["hwtypes/smt_bit_vector.py: SMTBit.__repr__, SMTBitVector.__repr__", "hwtypes/smt_int.py: SMTInt.__repr__", "hwtypes/z3_bit_vector.py: z3Bit.__repr__, z3BitVector.__repr__", "hwtypes/fp_vector.py: FPVector.__repr__", "hwtypes/fp_vector_abc.py: AbstractFPVectorMeta.__getitem__", "hwtypes/bit_vector_abc.py: AbstractBitVectorMeta.__repr__"]}
{"id": "C118", "title": "Which values have a hash", "statement": "hash(x) works for every Bit, concrete vector and Enum member and for every Tuple, Product, Sum and TaggedUnion that holds only such values, however deeply nested, so these can be keys of dictionaries and members of sets; it raises TypeError for every symbolic bit, vector and integer, every floating-point vector, concrete or symbolic, every ADT instance that has one of them anywhere inside, and every one that has a tuple inside one of whose components has been assigned. Classes derived from these that define neither __eq__ nor __hash__ change nothing. A derived class that defines __eq__ and not __hash__ has no hashable instances, and one that defines __hash__ decides alone.", "quantifier": "all nestings of ADT instances over all leaf classes of the library, all derived classes that put the library class last in the MRO", "why_tests_cant": "unbounded nesting and class hierarchies", "anchors": ["hwtypes/bit_vector.py: Bit.__hash__, BitVector.__hash__, NumVector.__hash__", "hwtypes/adt.py: Tuple.__hash__, Sum.__hash__, TaggedUnion.__hash__, Enum.__hash__, Tuple.__setitem__", "hwtypes/smt_bit_vector.py: SMTBit.__eq__, SMTBitVector.__eq__", "hwtypes/z3_bit_vector.py: z3Bit.__eq__, z3BitVector.__eq__", "hwtypes/smt_int.py: SMTInt.__eq__", "hwtypes/fp_vector.py: FPVector.__eq__", "hwtypes/smt_fp_vector.py: SMTFPVector.__eq__"]}
