# hwtypes: formal model and proofs (Rocq / Coq 8.16.1)

Everything here is about a Gallina model of the Python sources in `/repo/hwtypes`, read as text.
The code was never run. `properties.jsonl` lists the properties (C01, C02, ...); `MANIFEST.json`
maps each one to the theorems that prove it, or refute it and prove the part that is true.

## 1. Layout

* `*Model.v` (and `ADTTy.v`, `SMTTerm.v`, `PyBase.v`): definitions only, each with a comment citing file and lines.
* `*Spec.v`: independent vocabulary used in theorem statements.
* `*Facts.v` and the other files: lemmas.
* `*Proofs.v`: the proofs of the property theorems (lemmas named `<theorem>_pf`).
* `*Props.v`: the property theorems (each `exact <theorem>_pf`), `Print Assumptions` under each, and the `Example`s that
  show the hypotheses met by concrete cases.

| Part | Source in /repo/hwtypes | Model | Statements |
| --- | --- | --- | --- |
| Results, exceptions, bool/int helpers | CPython | PyBase | |
| Bit, BitVector, UIntVector, SIntVector: construction and methods | bit_vector.py, bit_vector_abc.py | BVModel | BVProps, RandomProps |
| Operators: coercion, NotImplemented, reflected methods, hash, Bit operators | bit_vector.py | OpModel | OpProps |
| Programs over a heap of mutable vectors | bit_vector.py | HeapModel | HeapProps |
| ite, polymorphic classes, bit-vector protocol | bit_vector_util.py, bit_vector.py | IteModel | IteProps |
| Sized classes, class cache, method resolution order | bit_vector_abc.py, bit_vector_util.py | MetaModel | MetaProps |
| pySMT family, SMTInt, formula constructors, substitute | smt_bit_vector.py, smt_int.py, smt_utils.py | SMTTerm, SMTModel | SMTProps |
| Symbolic ite and polymorphic classes | smt_bit_vector.py, bit_vector_util.py | SIteModel | SIteProps |
| Names of symbolic variables | smt_bit_vector.py, smt_int.py, smt_fp_vector.py | NameModel | NameProps |
| z3 family | z3_bit_vector.py | Z3Model | Z3Props |
| Algebraic data types: values, constructors, assignment, equality, enumerate | adt.py, adt_meta.py, util.py | ADTTy, ADTModel | ADTProps |
| Class statements, from_fields, T[...], class cache | adt_meta.py | InternModel | InternProps |
| rebind, rebind_bitvector, rebind_type, strip/push modifiers | adt_util.py, adt_meta.py, modifiers.py | RebindModel | RebindProps |
| Visitors | adt_util.py | VisitModel | VisitProps |
| Modifiers | modifiers.py | ModModel | ModProps |
| Frozen dictionaries | util.py | UtilModel | UtilProps |
| Typed properties and methods | util.py | TPropModel | TPropProps |
| Floating point | fp_vector.py, fp_vector_abc.py | FPModel | FPProps, FP2Props |
| Floating point types as classes | fp_vector_abc.py | FMetaModel | FMetaProps |
| Conversions and contexts of floating point | fp_vector.py | FloatModel | FloatProps |
| One program in all families | bit_vector.py, smt_bit_vector.py, z3_bit_vector.py | ProgModel | ProgProps |
| Hierarchies of algebraic data types | adt_meta.py, adt.py | HierModel | HierProps |
| Enums | adt_meta.py (EnumMeta), adt.py (Enum) | EnumModel | EnumProps |
| Printing: repr, str, class names | bit_vector.py, adt.py, adt_meta.py | PrintModel | PrintProps |
| Concrete and symbolic operands together, truth, equality of instances | bit_vector.py, smt_bit_vector.py, z3_bit_vector.py, adt.py | MixModel | MixProps |
| Symbolic floating point | smt_fp_vector.py, fp_vector_abc.py | SMTFPModel | SFPProps |
| Named methods of polymorphic values | bit_vector_util.py, bit_vector.py, smt_bit_vector.py | PMethModel, SPMethModel | PMethProps, SPMethProps |
| The text of formulas | smt_utils.py, smt_bit_vector.py | SerModel | SerProps |
| Names of z3 variables | z3_bit_vector.py | Z3NameModel | Z3NameProps |
| new, subscripts of bound types | modifiers.py, adt_meta.py, bit_vector_abc.py | NewModel | NewVecProps, NewAdtProps, ItemProps |
| Vectors as dictionary keys | bit_vector.py | DictModel | DictProps |
| The bit-vector protocol | bit_vector_util.py | ProtoModel | ProtoProps |
| Threads: classes, names, one shared object | bit_vector_abc.py, smt_bit_vector.py, adt.py, bit_vector.py | ThreadModel, NThreadModel, ShareModel | ThreadProps, NThreadProps, ShareProps |
| Python's sequence protocol on vectors, instances and classes | bit_vector.py, adt.py, adt_meta.py, bit_vector_abc.py | SeqModel, SeqClsModel | SeqProps, SeqClsProps |
| Objects that share components; copies | adt.py, adt_meta.py, bit_vector.py | AliasModel | AliasProps |
| Programs with assignments in all families | bit_vector.py, smt_bit_vector.py, z3_bit_vector.py | MProgModel | MProgProps |
| Programs over algebraic data types in all families | adt.py, adt_meta.py with the three families | DProgModel | DProgProps |
| Laws of floating-point arithmetic | fp_vector.py | FPModel | FPAlgProps |
| Exact floating-point operations | fp_vector.py | FPModel | FPExProps |
| Algebra of bit-vectors | bit_vector.py, smt_bit_vector.py, z3_bit_vector.py | LawSpec (expressions over ProgModel) | LawProps |
| Vectors of user-defined classes | bit_vector.py, bit_vector_abc.py, modifiers.py | DerivModel (over MetaModel), DerivSpec | DerivProps |

## 2. Modelling conventions

* Python `int` is `Z`; `<<`, `>>`, `&`, `|`, `^`, `~`, `//`, `%` are `Z.shiftl`, `Z.shiftr`, `Z.land`,
  `Z.lor`, `Z.lxor`, `Z.lnot`, floor `Z.div`, `Z.modulo` (guarded where Python raises).
* A call that can raise returns `res A := Ok a | Raise e`; `InconsistentSizeError` is a distinct exception
  that is a subclass of `TypeError` (`is_type_error`). `EOutOfModel` marks arguments a model leaves out; no theorem
  concludes from it, except by excluding it.
* A binary dunder returns `NotImplemented` or a value; the interpreter's binary-operator and
  rich-comparison protocols (reflected method, subclass priority, identity fallback for ==/!=) are modelled.
* Arguments are an inductive type (`pyval`, `sval`, ...) covering the kinds the code distinguishes.
* State that the code keeps between calls (class caches, weak tables, counters, symbol tables, mutable objects) is a
  record; a program is a list of operations, including dropped references and garbage collection at any moment, and the
  theorems hold after every list.
* Libraries (pySMT, z3, gmpy2) are modelled by what they document: terms are a deep-embedded syntax with an evaluation
  function; the simplifier is an arbitrary function that preserves sort and value, quantified over in the theorem.
  gmpy2/MPFR is modelled at the level of its algorithms (see section 5).
* Warnings and performance are not modelled; reprs only in C82, C92 and C117. `random` is an oracle quantified over in the theorem.

## 3. Per property: what is modelled, how it is proved, outcome

"refuted" means that a theorem `..._refuted` gives a witness for which the property as stated in `properties.jsonl` is
false of the code; the `..._partial` theorems then say what is true. The notes in `MANIFEST.json` give details.

| Id | Model and proof | Outcome |
| --- | --- | --- |
| C01 | heap program with every API call as a step; invariant by induction over the program | proved |
| C02-C17 | functions of bit_vector.py, compared with integer and bit-level specifications (testbit, mod, pow) for every width | proved |
| C18, C22, C28 | operator protocol; case analysis over operators, classes and operand kinds | proved |
| C19 | as C18 | refuted for `>>` (k >> x computes x >> k on unsigned classes) |
| C20 | as C18 | refuted: obj op x raises NameError |
| C21 | hash key as (class name, decimal text); injectivity | refuted across classes |
| C23, C25 | nested branches, return type, coercion; induction on the tree | proved |
| C24 | polymorphic classes as trees of selectors; induction | refuted for int(v), `>>` on the right, mixed right operands |
| C26 | heap with object identity | refuted: x % 0 returns x itself |
| C27 | metaclass call | refuted for SIntVector |
| C29, C68 | class table with cache and collection, C3 linearization; invariant over histories | proved |
| C67 | as C29, exact method resolution order | refuted for hierarchies with a mixin before a vector base, and for float sizes |
| C30, C32, C33, C64 | typed terms, eval, every SMTBitVector method; agreement with BVModel/OpModel under every assignment and simplifier | C64 proved; C30, C32, C33 have refuted corners |
| C31 | exact characterisation of the operand values on which the families agree | refuted elsewhere |
| C34, C35 | weak name table, counters, pySMT symbol table, arbitrary collection | corners refuted |
| C36 | formula tree, induction | proved |
| C37 | SMTInt terms | refuted: as_sint at width 1 |
| C38 | z3 terms with z3's operator meanings, same statements as C30/C32 | corners refuted |
| C39-C45 | types and values as nested inductives; operations with error branches; histories of assignments | C44 proved; the others have refuted corners |
| C46, C55 | class statements and indexing as a state machine with weak cache and collection | corners refuted |
| C47-C49, C51, C52 | type trees; rebind/strip/push as recursive functions; structural induction | corners refuted (AnonymousProduct, modified unbound classes, lost methods) |
| C50 | modifiers over arbitrary class hierarchies and histories | proved |
| C53 | visitors | refuted corners (visit_leaf spelling, None components, ambiguous sums) |
| C54 | dictionaries over arbitrary keys/values with lawful == | refuted across the two classes |
| C56-C62, C70, C71 | MPFR numbers as dyadics rounded to (precision, emin, emax), subnormalize; bit patterns through BVModel; exact rational arithmetic | C56, C70, C71 proved; the others refuted for one exponent bit, RNA, abs(-0) |
| C63, C72 | table of uninterpreted functions, symbol table, histories of classes and variables; arbitrary interpretations | C72 proved; C63 refuted for fp_min, fp_max, to_sbv |
| C73-C75 | square root by integer square root with sticky remainder; int(mpfr) with the direction as a parameter; random with the draws as arguments | C73, C74 proved; C75 refuted (infinity from random(allow_inf=False)) |
| C76, C77 | as C29, C67, with formats for sizes | C76 proved; C77 refuted for a mixin before a floating point base, and for indices equal to a format but of other types |
| C78, C79 | straight-line programs over results of earlier statements (ProgModel), run by the three families of methods already modelled; a checker (ProgSpec) that looks at classes and program text; simulation by induction on the program, from C30-C38; fresh variables can be given any values | partial: proved for all programs the checker accepts; refuted outside (signed //) |
| C80, C81 | classes with metaclass, bases, MRO (C3), fields, field table and attributes; weak cache; histories with garbage collection; an invariant over all histories | C80 refuted for several unbound bases (unbound_t), mixed tuple bases, MRO conflicts; C81 refuted for attributes of unbound bases and for fields added to bound types |
| C82, C83 | class statements over Enum and its subclasses, from_fields, cache with eviction; classes with bases, MRO, fields, field table, attributes; members with type, name, value; an invariant over all histories | C82 refuted for the order after a cached class statement, for members called name/value/unbound_t, for members of sub-enums and for the __x__ attributes of a cached class statement; C83 refuted for transitivity across sibling sub-enums and for field_dict with several bases |
| C84 | as C47-C49 | refuted for subclasses and modified leaves that occur beside and inside a component, for modified tuples inside the type, for replacements that contain A |
| C85, C86 | property objects, classes (MRO by C3), instances with dictionaries, names of functions; decorators, class statements with `__set_name__`, attribute access with data descriptors; histories | C85 proved (findings: a TypedProperty object called twice, a property assigned after the class statement); C86 refuted for a function under two names |
| C87, C88 | heap of z3 objects, the weak name table, the counter, constants as (name, sort); histories of variables, expressions and collection | C87 by an invariant over all histories (finding: a vector of no bits blocks its name); C88 refuted for reused names, proved for live variables and new names |
| C89 | as C24, with the named methods | C89_methods by case analysis over reachable values; findings: ext(0) and concat |
| C90 | bool() of the results of comparisons; instances as trees with identities, == and != of adt.py with the identity shortcut of tuple comparison (MixModel.v) | by induction on instances, leaves by C30/C38; findings: z3 values are always true, so == of z3 Tuples is always True |
| C91 | the concrete operand as an object with __int__ and __bool__, the symbolic one as an object without (MixModel.v) | from C30, C38 and the conversion of objects; findings: reversed >>, negative operands, silent widths, Bit ^ SMTBit, z3 right operands |
| C92 | the `__repr__` and `__str__` methods and the name callbacks as functions to strings; texts as expressions with unparse and eval (PrintModel.v) | injectivity by induction on types and values with separator arguments; findings: Sum prints with str, str of SIntVector[0], Tuple[]() |
| C93 | serialize as a function to strings, pySMT's text of a leaf as an argument (SerModel.v) | unique readability by induction on formulas with the text that follows |
| C94 | new as a class statement followed by an index, over the states of C29 and C80 (NewModel.v) | the merge of method resolution orders that are subsequences of one of them is that one |
| C95 | every branch of `__init__` by kind of argument, `__float__` as one more rounding to the double format (FloatModel.v) | a significand padded with zeros is representable in the wider format and rounding is exact on representable numbers; refuted for objects that go through `__float__` |
| C96 | the search for `_ctx_` along the method resolution order and the comparison of contexts, over the states of C76 (FloatModel.v) | a class above a bound class has the same parameters or none |
| C97 | `__hash__` and `__eq__` under a dict with stored hashes and any probing order, over the heap of C01 (DictModel.v) | refinement to a map from (class, value); refuted for keys that are assigned to, by a program |
| C98 | `__getitem__` of bound types by kind of metaclass, over the hierarchies of C80 (NewModel.v: bound_item, bound_slice) | case analysis over the fields and field dictionaries of C80 and C81; refuted for names of anonymous products |
| C99 | `__getitem__` of the metaclass as steps (read the cache, index the bases, make, store) of any number of threads with call stacks, over the states of C29 (ThreadModel.v) | an invariant over all interleavings; a thread alone refines C29; refuted by schedules for overlapping evaluations |
| C100 | the symbolic methods on vectors of any class, with the dispatch of polymorphic classes (SPMethModel.v) | a congruence: a method looks at size and value of the receiver only; the rest by simulation from C30-C37 and C65; finding: concat |
| C101 | the constructors of symbolic variables as steps (look the name up, take a number, store) of any number of threads over the states of C34 (NThreadModel.v) | invariants over all interleavings; a constructor alone refines C34's step; refuted by schedules for unsynchronised name= |
| C102 | objects with types, resolution orders and attributes; the two levels of instance and subclass checks (ProtoModel.v) | invariants of reachable hierarchies; the checks unfold to conditions on attributes; refuted by hierarchies for the comment's wording |
| C103 | item assignment and reading as steps (one access to the contents each) of any number of threads on one vector, Tuple or Product, with interruptions (ShareModel.v) | provenance invariant over all schedules; serial explanation for one writer or no overlap; lost update refuted by schedule |
| C104 | the same for Sums and TaggedUnions (value and tag stored and read separately) | provenance and typing invariants; refuted by schedules for torn reads, two writers and interrupted setters |
| C105 | Python's sequence protocol over __getitem__ and __len__: for, list, unpacking, reversed, in; on vectors, symbolic vectors and ADT instances | a loop lemma over any get function, by induction on the positions left; refuted for in of symbolic vectors and of other ints |
| C106 | the same protocol on classes: metaclass __getitem__ and __len__ over the states of C29 and C98, with the length hint of list() | loop invariant: the class stays alive and indexable in every later history; refuted for bool and list |
| C107 | the heap of C35 with bit assignment on vectors, copy.copy and copy.deepcopy (memo table, recursion limit); readings are an inductive relation between objects and contents | components of an instance have types of smaller nesting depth (sub preserves it), an invariant of every call; readings by induction on depth, assignments by a substitution lemma, results by a relational lemma for the operations of C35; deepcopy by an invariant on the memo |
| C108 | the calls of C78 on a store of objects with variables that refer to them, y = x, and item assignment in place; in the concrete family a call may return the object of a variable (C26) | simulation: at any time there is a map from the symbolic objects to the concrete ones that preserves contents and is injective except on dividends and results of remainders, which the checker protects from assignment; refuted for assignments to those (x % 0 is x only in the concrete family) |
| C109 | the programs of C108 with construction, component access and component assignment of Tuples, Products, Sums and TaggedUnions, on one store of shared objects, with the ADT operations of ADTModel and the vector calls of the three families; the same program run on classes only decides whether it is accepted | the ADT operations commute with renaming the family in every type (parametricity lemmas of C107 plus order, equality and subclass lemmas), and a simulation step by step between the run on classes, the symbolic run and the concrete run; exceptions agree too; store laws (what each statement of the program changes, and nothing else) and a statement about satisfiability and validity of a Bit the program leaves |
| C110 | the FPVector operations of C70 and C71 | from correct rounding follows, in every direction, that no value of the type lies strictly between the exact result and the result (FPAlgFacts.v), hence exactness, monotonicity and gradual underflow; commutativity, negation and subtraction from the exact operations and the symmetry of the rounding; rounding does not depend on the fraction that represents the exact result (FPLawProps.v); min and max return an operand unrounded and are meet and join of a total order with -0 below 0 (FPMinFacts.v); the refuted variants (associativity, distributivity, underflow without ieee_compliance, negation in the directed modes) by witnesses |
| C111 | the FPVector operations of C70, C71 and C73 | a rational that is a combination of two values of the type with integer factors is a whole number of units, so it is a value as soon as it is no larger than one of them (FPExFacts.v); with C110's exactness this gives subtraction of close numbers, doubling and remainder; integers up to 2^mb are values or overflow, larger values are integers; the two laws that need ieee_compliance are refuted without it |
| C112 | expressions: nests of the calls of C78, evaluated in the three families (LawSpec.v) | typing and simulation by induction on expressions, so an equation between concrete values transfers to both symbolic families; the concrete equations from C05-C15, C23, C28 and integer arithmetic modulo 2^n or bit by bit; wrapping laws refuted by witnesses |
| C113 | the methods of bit_vector.py on objects whose class is any class of MetaModel.v, with `unsized_t[n]` run through the class machinery (DerivModel.v) | simulation of the plain vectors by induction on programs: every class made on the way is in the cache under its unsized_t (invariant over all histories), u[n] has the superclasses of u, and SIntVector precedes BitVector in every method resolution order (induction over C3 merges); AttributeError for classes without unsized_t by cases; mixed signedness and modified classes refuted by witnesses |
| C114 | the FPVector operations of C71 | values are integers t * 2^j of units (FPErrFacts.v); the result of an operation lies between the neighbours of the exact result on every grid, which bounds the error by one step in all modes; the error is a multiple of a power of two small enough for it to have mb+1 digits, so it is a value, and C110's exactness makes the correcting operations exact; the six-operation sum (FPTwoSumFacts.v) adds that x - x' has few enough digits when the first subtraction is rounded |
| C115 | FPVector.__init__ of another FPVector (C95) and the operations of C71 | rounding is shown to depend on the number and not on the fraction (FPWideFacts.v), so an exact intermediate result is harmless; in one direction the values of F are values of G, hence the least value of G not below q is not above the least one of F; to nearest, an inexact wide sum means that one operand is less than a quarter step of the other, which both roundings then return; a quotient or square root keeps a distance from every half-way point of F (FPQuotFacts.v, FPRootFacts.v) that the wide type resolves |
| C116 | make_constant of the three families (BVModel.v, SMTModel.v, ConstModel.v) | from the theorems on construction (C32, C38), which make the symbolic constant mean the concrete one under every assignment |
| C117 | `__repr__` of the symbolic classes and of FPVector, with the printing of formulas and of mpfr numbers as arguments (SPrintModel.v) | the first opening parenthesis ends the class name, which identifies the class; the rest is the name, unique among live variables by C34 and C87, or the text of the formula |
| C118 | the `__eq__` and `__hash__` of every class, the rule of class statements for them, hash() of nested instances (HashModel.v) | the slot found along an MRO ignores classes that define neither; then induction on the nesting, with the first component that raises deciding a tuple |
| C65 | symbolic counterpart of C23-C25 | corner refuted (as C24) |
| C66 | as C12 | refuted: sext(0) raises |
| C69 | random source as an argument | proved |

## 4. Parts of the code that are not modelled

* bit_vector.py: warnings; `BitVector.__init__` from objects whose `__int__` has side effects.
* bit_vector_abc.py: abstract method bookkeeping (ABCMeta), `_info_` in namespaces; garbage collection while threads
  make classes. Threads are modelled for `K[n]` of bit vectors, for the
  names of symbolic variables and for item access on one shared object only.
* bit_vector_util.py: `_issubclass` on non-classes beyond what `determine_return_type` needs; names of generated classes.
* smt_bit_vector.py, smt_int.py: `get_family`, warnings; pySMT's own simplifier and parser (the
  simplifier is quantified over).
* z3_bit_vector.py: the warning for names like V_0, RepeatBitVec(0).
* smt_utils.py: nothing else (pySMT's `serialize` of a leaf is quantified over).
* adt.py, adt_meta.py: the order in the names of Sums (a set), deprecated `.value`, class keyword arguments.
* adt_util.py: nothing else.
* modifiers.py: `name=` and `module=` of `new`, names of modified classes, metaclass hooks, instances of modifiers, modifiers of modifiers.
* util.py: `_issubclass`, docstrings of properties, `Method.__call__`.
* fp_vector.py: a class body that defines `_ctx_`; what gmpy2 reads in a string (an argument of the model).
* compatibility.py, `__init__.py`: no behaviour of their own.

## 5. Trusted base

* The Coq 8.16.1 kernel, including its `vm_compute` (used for closed examples and witnesses).
* Axioms: none. `Print Assumptions` under every property theorem prints "Closed under the global context". The
  `Under_rel` entries a whole-library listing shows belong to the module type of Coq's own ssreflect `ssrunder`; no
  theorem depends on them.
* The reading of the Python source recorded in the comments of the model files.
* CPython semantics as modelled: integers, slices, binary operator and comparison protocols, C3 linearization, descriptors,
  dictionaries (entries carry the hash they were inserted with; lookup compares by identity, then by ==),
  weak dictionaries (an entry disappears when its object is collected; collection may happen at any moment).
* pySMT: sorts are checked when nodes are built (PysmtTypeError is a TypeError, PysmtValueError a ValueError); the
  meaning of each node is the SMT-LIB one (`SMTTerm.v`); `simplify` preserves sort and value; symbols keep their type for ever.
* z3: as pySMT, with z3's own readings of `/`, `%`, RotateLeft/RotateRight with vector amounts, Extract errors.
* gmpy2/MPFR: an operation is the exact result rounded to the precision (ternary value kept), then
  `mpfr_check_range`, then `mpfr_subnormalize` when the context asks for it; NaN results have a clear sign; conversions
  of NaNs and infinities keep them; contexts with emin > emax are accepted; the exponent limits of MPFR itself are ignored.
