# Design: a machine-checked model of XDeme1/xme

The subject is the header-only C++20 library in `/repo`.  The model and proofs
are Coq 8.16.1, logical name `Verif`, under `rocq/theories`.  Nothing in
`/repo` is compiled or run; every definition of the model cites the file and
lines it transcribes and says what it simplifies.

## 1. How the pieces are organised

For each component `X` there is a model, and its theorems are in a separate file:

| file                        | content                                                          |
|-----------------------------|------------------------------------------------------------------|
| `XModel.v`                  | Gallina transcription of the C++ functions, one definition each  |
| `XSpec.v`, `XObsSpec.v`     | the independent specification (lists, maps, orders, what a client can observe) |
| `XRun.v`                    | the language of client calls over the model, where there are histories |
| other `X*.v`                | lemmas                                                           |
| `XProps.v`                  | the theorems that the manifest names, an `Example` beside each, and `Print Assumptions` |

Small components have no `Spec` file: the few definitions their statements need
stand in the `Props` file, next to the theorem.  `Base.v` is the outcome monad.

| model          | transcribes                                                              |
|----------------|--------------------------------------------------------------------------|
| `ArrayModel`   | `array.hpp`, `destroy.hpp`, `uninitialized.hpp`, `icontainer.hpp`         |
| `ListModel`    | `linked_list.hpp`, `linked_list_base.hpp`                                 |
| `AllocModel`   | `array.hpp`, `linked_list.hpp` for allocators with state: memory only      |
| `InputModel`   | the range functions of `array.hpp`, `linked_list.hpp`, `heap.hpp` with iterators that read from a stream |
| `ReqModel`     | the constraints of the templates that take ranges and what their bodies need; `const_iterator.hpp`, `iterator_traits.hpp`, `constant_iterator.hpp` |
| `IncludeModel` | all headers as lists of what they include, declare, use, define; `#pragma once`; the modules |
| `OverModel` | overload resolution: constructors of the containers, push_back/insert/push_front, constructors of views, of matrices from columns and matrices |
| `ElemModel` | layout of vectors, matrices and quaternions; access by index under the rules for addresses and under those for constant expressions |
| `HeapModel`    | `heap.hpp`, on top of `ArrayModel`                                        |
| `SpscModel`    | `spsc_queue.hpp`, `spsc_queue_base.hpp`                                   |
| `SimdModel`    | `find.hpp`, `reverse.hpp` with their intrinsics                           |
| `BitsModel`    | `has_single_bit.hpp`, `to_unsigned.hpp`                                   |
| `ViewModel`    | `array_view.hpp`                                                          |
| `IterModel`    | `reverse_iterator.hpp`, `const_iterator.hpp`, `Array::Iterator`           |
| `DelegateModel`| `delegate.hpp`                                                            |
| `TupleModel`   | `tuple.hpp`, `tuple_base.hpp`, `pair.hpp`: values                         |
| `TypesModel`   | types, value categories and overload resolution: `forward_like.hpp`, `get`, `tuple_element`, `tuple_cat`, assignment, concepts and traits |
| `ExceptModel`  | exception specifications of the functional, tuple, heap and algorithm headers |
| `BindModel`    | `bind.hpp`, `scoped_delegate.hpp`                                         |
| `VecModel`, `MatModel` | `math/*`: vectors, matrices, quaternions, transformations, over any arithmetic |
| `FloatModel`   | float and double as element types (Flocq)                                 |
| `IntVecModel`  | integer types as element types: promotions, wrap-around, overflow, `sqrt` |
| `ConstModel`   | the literals of `constants.hpp` and their conversion to a type            |
| `HalModel`     | `shared_library.hpp`, `linux/platform.hpp`, `simd_detection.hpp`          |
| `LayoutModel`  | sizes, alignments and offsets: `aligned_data.hpp`, list nodes, queue      |
| `DetectModel`  | the preprocessor directives of the detection headers and `setup.hpp`      |

`Client.v` defines programs that choose each call from the results of the previous ones
and catch exceptions; the history theorems hold for all of them.

Theorems named `…_refuted` exhibit (by computation in the kernel) a concrete
input on which the code of `/repo` violates the property.  Theorems named
`…_partial` prove a weaker statement; the MANIFEST note says what is missing.

### Undefined behaviour, exceptions, termination

* A C++ call is a function `state -> res A`, `res A ::= Ok a s | Throw s | UB why`.
  Undefined behaviour (access outside a block or to a freed block, reading an
  element that is not alive, assigning to raw storage of a non-trivial type,
  destroying a dead element, deallocating with the wrong pointer or size, null
  dereference, pointer difference across blocks, failed `assert`) is a separate
  outcome, so "never UB" is a statement, not an artefact of totality.
* Exceptions: an oracle (list of booleans in the state) decides for every
  allocation and every element construction whether it throws.  Quantifying
  over the oracle quantifies over every throw point.  Element moves and
  assignments do not throw (the headers document this as a requirement).
* Loops over iterators recurse on an explicit length or fuel; running out of
  fuel is an error outcome which the theorems exclude.
* Machine arithmetic is written with explicit `mod 2^64` where a wrap can be
  observed (`SPSCQueue` counters, `ArrayView::subview`, `lerp` on unsigned).
  Container sizes are naturals: a size is bounded by an actual allocation, so
  `size + max(size,1)`, `capacity + n` stay below 2^64 for every element type.

### Element lifetimes (Array)

Memory is a list of blocks; a block is a list of cells `Raw | Live v | Moved`.
A flag `triv` says whether `T` is trivially copyable (an implicit-lifetime
type): then assignment to raw storage and destruction of raw storage are
allowed, moving is copying.  For non-trivial `T` assignment to raw storage is
UB and moving leaves `Moved`.  A ghost counter records objects whose storage
was freed or overwritten without running their destructor.

### Concurrency (SPSCQueue)

Operational release/acquire model.  Every index variable has a history of
stores (single writer each); a load may return any store not older than what
the loading thread already knows; an acquire load that reads a release store
joins the views.  A non-atomic slot access is checked against vector-clock
epochs of the last accesses; an unordered conflict is the outcome `Race`.  The
granularity is one atomic access or one slot access per step; a schedule picks
the thread, the message read, and whether a constructor throws.  There is no
load buffering (a load does not read a store that is later in program order of
another thread's unexecuted code).  The `seq_cst` accesses of the destructors are
modelled as acquire and release, which is weaker, so that nothing is assumed
from their total order.

### SIMD

Memory is a list of bytes; a register is a list of 16 or 32 bytes.  Each intrinsic is its
description in the manual.  `find` dereferences a pointer to `__m128i` or `__m256i`,
which needs the alignment of that type: a misaligned load is an outcome.  Two readings
of the pointer rules are kept apart: `Flat` (an address may be formed anywhere in the
allocation) and `Strict` (the C++ rule: not beyond one past the end of the range).
Which instructions the enabled levels contain is C82: `_mm_cmpeq_epi64` is SSE4.1 and
`_mm_shuffle_epi8` is SSSE3.  Evaluation at compile time is in `EvalModel.v` (C162).

### Types and exceptions

`TypesModel` has a small universe of types (objects, classes, pointers, functions,
references, cv) and computes what the declarations select: implicit object parameters,
reference binding, deduction, constraints.  An ill-formed program is an outcome.
`ExceptModel` keeps of a function its exception specification and the operations of
the user's types it performs; a throw that meets a noexcept function is `Term`.

### Numbers (math)

The vector/matrix code is modelled over an arbitrary carrier with arbitrary
operations, keeping the evaluation order of the source, so that component-wise
statements hold for floats and wrapping integers alike.  Algebraic laws are
proved over any commutative ring (`ring_theory` as a hypothesis of the
theorem), metric statements over `R`.  The same definitions are then instantiated with
IEEE arithmetic (`FloatModel`: any precision and exponent range, one NaN, every
operation rounded to the element type) and with the integer types of C++
(`IntVecModel`: promotion to int, wrap-around of unsigned, undefined signed overflow,
conversion to double and `sqrt` for `length`).

## 2. Per property

| id | modelled | how proved |
|----|----------|------------|
| C01, C02 | all of `array.hpp` over blocks of cells; op language over many arrays | simulation: every op preserves `store_rep` (each array owns its own block, cells = map Live l); induction over the op list; final leak statement: every live block is owned |
| C03 | reserve/resize/clear/pop_back/copy | per-operation specs with capacity component |
| C04 | emplace_back/grow_storage with ghost move counter | potential argument `moves + cap <= 2*size`-style invariant, induction on k |
| C05–C07 | insert, insert range, erase loops incl. overlapping moves | loop lemmas for forward/backward moves, list algebra |
| C08, C09 | copy/move/swap/assign incl. aliasing | per-op specs with frame: other blocks and arrays unchanged |
| C10, C11 | throw oracle | case analysis over throw point by induction on the loops; refutation by vm_compute for C11 |
| C12 | non-trivial mode | positive part for in-capacity operations; witnesses for growth, realloc insert, erase; the positive part is exact: every other history comes to an assignment to raw memory |
| C13 | arguments by reference (`ARef p`) | witnesses; positive part for non-full arrays and for realloc insert |
| C14 | IContainer accessors | direct from the representation predicate |
| C15–C22 | `linked_list.hpp` on a node heap (location -> next, storage) | `lseg` predicate with explicit node identities; induction on node lists; history simulation |
| C23–C26 | `heap.hpp` on top of the Array model | refinement to pure list functions, then heap-order invariant with one "hole"; comparison counter for the bound |
| C27–C34, C133 | `spsc_queue_base.hpp`, step machine described above | one inductive invariant over all reachable states |
| C35–C37 | `find.hpp`: bytes, lanes, movemask, countr_zero | block lemma + induction over blocks; witnesses for alignment and floats |
| C38, C39 | `reverse.hpp`: shuffle/permute masks | block reversal computed on symbolic 16/32 lists; induction on block count |
| C40 | `has_single_bit.hpp`, `to_unsigned.hpp` | bit-level lemma on `N` |
| C41–C43 | `array_view.hpp` | list slicing; witness for the wrapping assert |
| C44–C46 | iterator classes over integer positions | algebra on `Z`; witness for ordering |
| C47–C49 | `delegate.hpp`: manager/callable/storage words, heap cells | ownership invariant over histories; witness for `handle` |
| C50, C51 | `bind.hpp`, `scoped_delegate.hpp` | list append; scope-unwinding semantics |
| C52–C54 | `tuple.hpp`, `tuple_base.hpp`, `pair.hpp` with heterogeneous values as a list over a universe type | induction on type/value lists |
| C55–C66 | `math/*` | vectors as lists with the loops transcribed; `ring`, `field`, `nra`, `Reals` |
| C67 | `faceforward` | witness; the positive part for dot <> 0 |
| C68, C80, C83 | `constants.hpp`, `trigonometry.hpp` literals as rationals | interval arithmetic for pi, e and logarithms; truncated series with exact remainders for zeta(2), zeta(3), zeta(4), Catalan, Euler; rounding as integer inequalities |
| C69, C97 | `shared_library.hpp` with a loader that counts handles; which declarations exist | witnesses; positive part for histories without explicit `close`/re-`open` |
| C70 | `linux/platform.hpp` over a byte memory | witness for unterminated views; map laws for terminated ones |
| C71, C81, C82 | the `#if`/`#define` chain as a function on request masks, the intrinsics of each path | by cases on the levels |
| C72 | list insertion of own elements | simulation |
| C73, C74 | `reverse` without SIMD, `find` under the strict pointer rule | as C35–C39 |
| C75 | mixed `ReverseIterator` comparisons | algebra; witness |
| C76–C79 | constructors, comparison, `lerp` with unsigned, matrix operators | list algebra; witness |
| C84–C87, C108–C112 | float and double | error analysis with Flocq's rounding: standard model, induction over the accumulation loops, bit-exact symmetries by cases on special values |
| C134–C137 | determinants, quaternions, transformations and `reflect` in float | the functions are instantiated at an arithmetic of expressions; one induction over expressions bounds the rounding error, another excludes overflow |
| C138 | projection matrices in float | a calculus of relative errors that multiply, for sizes that neither vanish nor explode; the far plane at 2^127 is refuted |
| C139–C141 | CTupleLike, CPairLike, assignment from tuple-like objects, conversion of a Tuple | three outcomes (rejected, does not compile, accepted); a table says what `get` hands out |
| C142–C143 | std::common_reference and std::common_type of Tuples | the specialisations' pack expansions give an error where packs differ; common references of elements are parameters |
| C144–C145 | what a Delegate can be made from, its deduction guides | outcomes as for tuple-like types; callability and conversions are parameters; the specification is what std::function accepts |
| C146–C150 | which constructor of a vector is taken and what it makes; deduction guides of vectors, quaternions and matrices | overload resolution over the 14 constructors as data; casts are a parameter; the common type is specified as the least upper bound of an order on the arithmetic types |
| C151, C152 | deduction guides of ArrayView, Tuple and Pair | guides as candidates with reference bindings, ranked as in [over.match.best]; types of arguments as a small grammar |
| C153 | determinants, matrix times vector and matrix | linear algebra over the reals from scratch: more vectors than rows are dependent; Cramer's rule |
| C154, C155 | `glsl_mapping.hpp`, types of operators | table of names against the GLSL grammar; overload resolution and typing of bodies against a relation of linear algebra |
| C156 | `array.hpp`: relocated elements | cost of the primitive steps composed along each call; the counter `moved` of the model against a table |
| C157 | comparisons of `Vector`, `Matrix`, `Quaternion` | overload resolution with rewritten candidates over the implicit constructors of CtorModel; table `taken_for` of the conversions, and refutations |
| C158–C159 | `icontainer.hpp`; const views | constraints and overloads of each accessor over an abstract range; `seen`, `enough`, `gives` as specification |
| C160–C161 | fused multiply-add (`tests/CMakeLists.txt`: -march=native) | the functions over expressions; `result`, the set of numbers an expression may have when any product may be fused with an addition; the bounds of C84, C110, C134 and C136 |
| C162 | constant evaluation of `find`, `reverse`, `Array`, `LinkedList` | what stops the compiler (a function that is not constexpr, a pointer past the array, an element before its lifetime, kept memory, a cast from bytes) as outcomes of the models; exact conditions and witnesses |
| C163 | `length`, `distance`, `normalize` with fused operations | results of `length()` reduce to those of `length(v)` for a permutation; the bounds of FloatProps.v are lemmas about any radicand that is close enough |
| C164 | `destroy_a`, `destroy_at_a`, `destroy_n_a` for arrays of any dimension and allocators with their own `destroy` | the elements are counted by address; the events of a call, projected to ends of lives and to calls of the allocator |
| C165 | SPSCQueue in one thread: push, pop, consume with callbacks that call the queue, counts, clear | a list of elements with a bound; the results of a sequence of calls are computed from the list alone |
| C166 | Delegate with functors whose bodies are programs that use their members and delegates | big-step rules on lists of delegates with a count of replacements; no addresses, heap or storage |
| C167 | What operator() and invoke of Delegate do with each argument | a table per argument (reference or fresh object, copies, moves, moved from) for every signature; no intermediate stages |
| C168 | What binding and calling do with each argument of bind_front and bind_back | one relation between arguments, parameters and memory before and after, without the forwarding functions in between |
| C169 | Size, address and index arithmetic of Array and Heap modulo 2^b | sizes, capacities and requests in exact arithmetic per operation; no addresses |
| C170 | Copies and moves of make_tuple, forward_as_tuple, apply, conversion, tuple_cat, assignment and swap of Tuple; make_pair, assignment and swap of Pair | one copy or move per new object by the category of its source; addresses only to tell objects apart |
| C171 | How LinkedList, Array, Heap and SPSCQueue pass an argument to the new element | new address, value, what the argument keeps, and counts; no containers |
| C88–C92 | `aligned_data.hpp`, list node, queue layout | offset arithmetic; overload resolution of constructors; witnesses |
| C93–C96 | detection headers as lists of directives | symbolic preprocessing over all predefined macros |
| C98–C100 | integer vectors | modular arithmetic; range analysis; `sqrt` of a double compared with `Z.sqrt` |
| C101–C107 | types and overloads | by cases on the universe of types, induction on type lists |
| C113–C115 | exception specifications | possible outcomes decided by a boolean function that is proved equivalent to the rules |
| C116 | ranges of elements of a list as source of assign / insert_after / construction | a source segment `srcp` that survives the loop's own writes; divergence by an invariant that holds for every number of iterations |
| C117–C119 | the containers reduced to blocks and allocators; throwing points kept | ownership as a multiset of claims (block, allocator, size) split between objects and temporaries; simulation of clients |
| C120, C121 | iterators as values beside a stream that single-pass iterators consume | lock-step agreement with the functions of the other models, which take the list of elements; the loss of elements by following the loops |
| C122 | a range type as a record of the facts that constraints and bodies ask for; outcomes not viable / error / compiles | case analysis over the functions under the laws that the concepts impose on the facts |
| C123 | an iterator type as a record of its operations and the type of `*i` | case analysis over references and concepts |
| C124, C125, C126 | a preprocessor with `#pragma once`, a set of declared names, macros, and whether `xme::ranges` exists | an invariant over the stack of open headers, discharged by a check of the table of headers by computation; then by induction over the directives |
| C127, C128, C129, C132 | candidates with conversion sequences, ranked as in [over.match.best]; a small universe of types | case analysis over candidates; induction over types and over the arguments |
| C130, C131 | lists of fields with size and alignment (LayoutModel); an access is done, asserts, or is undefined | offsets by induction over the fields; exact sets of sizes that work |

Inexpressible or left out: timing, `constexpr` evaluation other than access by index, templates instantiated with types outside the universe of `TypesModel`.

## 3. Trusted base

* The Coq 8.16.1 kernel (`coqc`), including `vm_compute` where used in
  refutations and finite computations.
* The axioms of section 4, all of the standard library.
* The correspondence between the C++ text and the Gallina transcription: read
  by hand, cited per definition, exercised by the mutation log
  `seeded/LOG.jsonl`.
* The standard library / range-v3 functions called by the code
  (`std::ranges::move`, `std::move_backward`, `std::ranges::swap`,
  `std::max`, allocator traits, intrinsics) are modelled by their reference
  semantics.

Not modelled: tests, benchmarks, build files, the Windows implementation of the
environment functions.

## 4. Assumptions of the theorems

Each `Props` file ends with `Print Assumptions` on the tuple of its theorems.

| file | assumptions |
|------|-------------|
| Access, AddArg, Alloc, Array, ArrayCost, Bind, BindArg, Bits, Common, Ctor, Delegate, DelegateRe, Destroy, Detect, Elem, Eval, Except, Forward, Functor, Guide, Hal, Heap, Include, Input, Iter, Layout, Like, List, Mat, Mix, Op, Over, Req, Simd, Size, Spsc, SpscSeq, Tuple, TupleArg, Types, View; `vec_theorems` of Vec | none ("Closed under the global context") |
| Transform | the axioms of the real numbers: `ClassicalDedekindReals.sig_forall_dec`, `ClassicalDedekindReals.sig_not_dec`, `FunctionalExtensionality.functional_extensionality_dep` |
| Round | `sig_forall_dec`, `functional_extensionality_dep` |
| `vec_real_theorems` of Vec (for arcsin and arccos), Float, FloatMat, Fma, FmaLen, IntVec, Singular | the axioms of the real numbers and `Classical_Prop.classic` |
| Const, Series, Zeta, FloatOps, FloatProj | these, and the primitive 63-bit integers with their specification: `PrimInt63.*`, `Uint63.*_spec` (the interval tactic computes with them) |

Primitive floats are never used (the interval tactic is always given a precision).
`coqchk` lists in addition the axioms of every library that is loaded, among them
those about primitive floats, because Interval loads them; no theorem depends on them.

## 5. Testing the theorems

Two files run the repository's own unit tests on the model: `RepoTests.v` (containers,
iterators, algorithms, tuples, types; every block of `tests/container` and `tests/core`
that the model covers) and `RepoTestsMath.v` (`tests/math`, with the arithmetic of float).
Each Example names the lines of the test and repeats its calls and its expected values. They
are evidence that the model agrees with the code, not properties of their own.

`tools/mutate.py` edits one definition of the model in a scratch copy, rebuilds
everything that depends on it and records where proofs break; `seeded/LOG.jsonl` has one
line per edit. Examples that fail (`examples_failed`) are removed and do not count as
detection, nor do edits after which the model no longer type checks.  An edit that breaks nothing is either shown to leave the claim true
or leads to a stronger theorem, named in `theorems_tightened`.
Since a broken proof script does not by itself show that the *statement* has become
false, `tools/check_mutants.py` evaluates instances of the statements (`tools/checks/*.check`)
on the edited model for a part of the edits.

`properties.jsonl` and `MANIFEST.json` are generated by `tools/gen_properties.py` and
`tools/gen_manifest.py`; the latter checks that every theorem it names exists.
