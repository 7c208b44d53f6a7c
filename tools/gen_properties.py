#!/usr/bin/env python3
"""Regenerates properties.jsonl (one JSON object per line)."""
import json, os
P = []
def p(title, statement, quantifier, why, anchors):
    P.append(dict(id="C%02d" % (len(P) + 1), title=title, statement=statement,
                  quantifier=quantifier, why_tests_cant=why, anchors=anchors))

ARR = "include/xme/container/array.hpp"
LL = "include/xme/container/linked_list.hpp"
HP = "include/xme/container/heap.hpp"
SQ = "private/container/spsc_queue_base.hpp"
AV = "include/xme/container/array_view.hpp"
IC = "include/xme/container/icontainer.hpp"

# ---------------------------------------------------------------- Array
p("Array behaves as a sequence over every operation history",
  "For a trivially copyable T, any sequence of constructions, push_back, emplace_back, insert, erase, pop_back, reserve, resize, clear, swap, copy/move assignment and destruction on any number of Arrays, each call meeting its documented precondition, performs no undefined behaviour and leaves every Array holding exactly the elements that the same sequence of operations on plain mathematical lists would give.",
  "all element values, all sizes, all finite histories of operations over all sets of arrays",
  "Tests run a handful of literal histories; the claim is about every history and about absence of undefined behaviour, which a passing test cannot show.",
  [ARR + ": Array (all members)", IC + ": IContainer"])
p("Array frees what it allocates, exactly once and with the right size",
  "Over any history, every block an Array obtains from its allocator is returned exactly once, with the same pointer and element count it was allocated with, and when all Arrays of the history have been destroyed no block is outstanding.",
  "all histories of operations ending with destruction of every array",
  "A leak or a wrong deallocate size on one path out of many is invisible to functional assertions.",
  [ARR + ": ~Array, grow_storage, shrink_storage, realloc_insert, insert, swap"])
p("Array capacity contract",
  "size() <= capacity() always holds; reserve(n) never shrinks, yields capacity() = max(old capacity, n) and keeps the contents; resize(n) yields capacity() exactly n and keeps the first min(size(), n) elements; clear() and pop_back() keep the capacity; copying gives capacity equal to the size.",
  "all arrays, all n",
  "The relation must hold at every boundary between n, size and capacity, including 0 and default-constructed or moved-from arrays.",
  [ARR + ": capacity, reserve, resize, clear, pop_back, Array(const Array&)"])
p("Array does not move elements while capacity suffices; growth is amortised",
  "push_back/emplace_back/insert/reserve that fit in the present capacity do not reallocate (begin() keeps its address, so iterators before the insertion point stay valid), and a run of k single push_backs on an empty array relocates fewer than 2k elements in total.",
  "all arrays and all k",
  "Iterator validity and a bound over arbitrarily long runs are universally quantified; a test samples one run.",
  [ARR + ": emplace_back, grow_storage, insert, reserve"])
p("Array single-element insert",
  "insert(pos, value) on a trivially copyable T with a value not stored in the array yields the old sequence with value placed before pos, returns an iterator to the new element, for every pos in [begin, end], both when it reallocates and when it does not.",
  "all contents, all positions, all values, all capacities",
  "Off-by-one errors hide at positions begin, end-1, end and at the full/not-full boundary.",
  [ARR + ": insert(const_iterator, U&&), realloc_insert"])
p("Array range insert",
  "insert(pos, first, last) with a source range outside the array yields the old sequence with the range placed before pos and returns an iterator to the first inserted element, whether it reallocates or not, including the empty range; the capacity after reallocation is old capacity plus the number of inserted elements.",
  "all contents, positions, source ranges, capacities",
  "Shifting overlapping ranges is only exercised on two small literals by the tests.",
  [ARR + ": insert(const_iterator, Iter, Sent), insert(const_iterator, R&&)"])
p("Array erase",
  "erase(pos) removes exactly that element and erase(first, last) exactly that range, the rest keeps its order, the capacity is unchanged, and the returned iterator designates the element that followed.",
  "all contents and all valid positions/ranges",
  "Boundary ranges (empty, whole, suffix) are not covered by the literal tests.",
  [ARR + ": erase(const_iterator), erase(const_iterator, const_iterator)"])
p("Array copies are independent and exact",
  "Copy construction and copy assignment give an array with the same elements, leave the source unchanged, and afterwards no operation on one of the two arrays changes the other.",
  "all arrays, all later histories on either copy",
  "Independence is about every later operation, not about one mutation after one copy.",
  [ARR + ": Array(const Array&), operator=(const Array&), uninitialized_copy_a"])
p("Array move and swap transfer ownership without touching elements",
  "Move construction/assignment and swap exchange the storage without allocating or touching any element; the moved-from array is empty and usable; self-swap, self-copy-assignment and self-move-assignment preserve the contents.",
  "all arrays, including aliasing of source and target",
  "Aliasing cases and the unusual swap-as-move-assignment of the internal triple need a proof over all states.",
  [ARR + ": Array(Array&&), operator=(Array&&), swap, ArrayData"])
p("Array construction and insertion are leak-free when an element constructor throws",
  "If an element constructor throws at any point: Array(n, value) destroys exactly the elements built so far and frees its block; push_back/emplace_back leave the elements unchanged; push_back(first,last) keeps the old elements followed by a prefix of the range; a reallocating range insert leaves the original array untouched.",
  "every throw point (crash point) of every such call",
  "Tests never throw from constructors, and the throw point is a universally quantified crash point.",
  [ARR + ": Array(size_type, const T&), emplace_back, push_back, insert", "include/xme/ranges/uninitialized.hpp"])
p("Array range construction cleans up exactly what it built when an element constructor throws",
  "If copying the k-th element throws inside Array(first, last) (or the copy constructor), the elements constructed so far are destroyed, the source range is untouched and the block is freed.",
  "every source range and every throw point",
  "Requires injecting an exception at each position and observing lifetimes.",
  ["include/xme/ranges/uninitialized.hpp: uninitialized_copy_a", ARR + ": Array(Iter, Sent)"])
p("Array respects object lifetimes for element types with non-trivial constructors",
  "For an element type with non-trivial construction/assignment/destruction, every Array operation only assigns to, moves from and destroys objects whose lifetime has begun, and destroys each object exactly once.",
  "all element types (trivial or not), all operations, all states",
  "Assigning to raw storage usually appears to work for simple types; only a lifetime-tracking argument decides it.",
  [ARR + ": grow_storage, shrink_storage, realloc_insert, insert, erase"])
p("Array insertion of one of its own elements",
  "push_back(a[i]), emplace_back(a[i]) and insert(pos, a[i]) behave as if the value of a[i] had been copied before the call.",
  "all arrays, all i, all pos, full or not",
  "Depends on whether the call reallocates and on the relative position of i and pos.",
  [ARR + ": emplace_back, insert, realloc_insert"])
p("Array element access agrees with the sequence",
  "size(), empty(), operator[], front(), back(), data() and iteration from begin() to end() observe exactly the represented sequence, indexed access is defined for every index below size() and undefined at and beyond capacity().",
  "all arrays and all indices",
  "Agreement must hold for every index and every reachable state.",
  [IC + ": operator[], empty, data, size, front, back", ARR + ": Iterator"])
# ---------------------------------------------------------------- LinkedList
p("LinkedList behaves as a sequence over every operation history",
  "Any sequence of LinkedList constructions, push_front, pop_front, emplace_after, insert_after, erase_after, assign, clear, reverse, copy/move construction and assignment and destruction over any number of lists, each call meeting its precondition, performs no undefined behaviour and leaves each list holding what the same operations on mathematical lists would give.",
  "all element values, all finite histories, all numbers of lists",
  "Pointer manipulation must be right in every shape of list and in every order of operations.",
  [LL + ": LinkedList (all members)", "private/container/linked_list_base.hpp"])
p("LinkedList iterators stay valid and keep designating the same element",
  "Inserting never invalidates iterators, erasing invalidates only iterators to the erased elements, and reverse() invalidates none: every surviving iterator keeps designating the same node and value.",
  "all lists, positions and operations",
  "Needs node identity, for every other node, on every operation.",
  [LL + ": emplace_after, erase_after, reverse"])
p("LinkedList::reverse reverses",
  "reverse() turns the sequence into its reverse, terminates on every list, allocates and frees nothing.",
  "all lists of any length",
  "An in-place pointer loop; needs a loop invariant for every length.",
  [LL + ": reverse"])
p("LinkedList::assign replaces the contents",
  "assign(first,last) makes the list equal to the range whether the range is shorter than, equal to or longer than the old contents, reusing existing nodes for the common prefix length; copy-assigning a list to itself changes nothing.",
  "all lists and all ranges, including self-assignment",
  "Three length relations times arbitrary lengths.",
  [LL + ": assign, operator=(const LinkedList&)"])
p("LinkedList range erase",
  "erase_after(pos, last) removes exactly the elements strictly between pos and last for every last reachable after pos (including the end), and clear() empties the list.",
  "all lists and all valid (pos, last)",
  "Loop over a shrinking linked structure, all lengths.",
  [LL + ": erase_after(const_iterator, const_iterator), clear"])
p("LinkedList frees every node exactly once",
  "Over any history every node obtained from the allocator is destroyed and returned exactly once; after all lists are destroyed no node is outstanding, and no operation touches a freed node.",
  "all histories ending with destruction of every list",
  "Use-after-free and leaks on rare paths are not observable by value assertions.",
  [LL + ": ~LinkedList, clear, erase_after, create_node"])
p("LinkedList insertion is exception-safe; constructors that throw midway leak",
  "If the element constructor throws in emplace_after/push_front/insert_after, no node leaks and the list keeps its elements (plus, for a range, the prefix already inserted). A range/fill/copy constructor whose element constructor throws at position k must not leak the k nodes built before.",
  "every throw point",
  "Crash points are universally quantified and no test throws.",
  [LL + ": create_node, emplace_after, insert_after, range_initialize, LinkedList(n, value)"])
p("LinkedList move construction and assignment",
  "Moving transfers the nodes without allocating or copying, leaves the source empty, and frees exactly the target's former nodes; self-move-assignment leaves a valid list.",
  "all pairs of lists, including the same list",
  "Aliasing and ownership transfer over all states.",
  [LL + ": LinkedList(LinkedList&&), operator=(LinkedList&&)"])
# ---------------------------------------------------------------- Heap
p("Heap front is always a maximum",
  "With a comparator that is a strict weak order, after any sequence of push, emplace and pop (from an empty or range-constructed heap) front() is an element that no other stored element compares greater than.",
  "all comparators that are strict weak orders, all histories, all element values including duplicates",
  "Depends on the whole history; ten-element literals do not settle it.",
  [HP + ": push, emplace, pop, heapfy_up, heapfy_down, Heap(Iter, Sent), Heap(R&&)"])
p("Heap neither loses nor invents elements",
  "push adds exactly the pushed element and pop removes exactly one occurrence of the former front(); the multiset of stored elements is otherwise unchanged, for any comparator whatsoever.",
  "all comparators (even inconsistent ones), all heaps",
  "Multiset preservation for arbitrary comparators and sizes.",
  [HP + ": push, pop, heapfy_up, heapfy_down"])
p("Draining a Heap sorts",
  "Repeatedly reading front() and popping until empty yields the stored elements in non-increasing comparator order, and yields each exactly once.",
  "all heaps, all strict weak orders",
  "Statement about arbitrarily long drains.",
  [HP + ": pop, heapfy_down"])
p("Heap operations are memory-safe, terminate and are logarithmic",
  "For any comparator, push and pop (of a non-empty heap) only access indices below size(), terminate, and perform at most 2*log2(size) comparisons (log2(size)+1 for push).",
  "all heaps, all comparators",
  "A complexity bound and termination are claims about every size.",
  [HP + ": heapfy_up, heapfy_down, parent, left_child, right_child"])
# ---------------------------------------------------------------- SPSC
p("SPSCQueue is FIFO without loss or duplication under every interleaving",
  "With one producer thread and one consumer thread, for every interleaving and every permitted stale read of the other side's index, the sequence of consumed elements is a prefix of the sequence of successfully pushed elements.",
  "all schedules, all stale-read choices, all power-of-two capacities, all programs of the two threads",
  "Schedules and weak-memory read choices cannot be enumerated by running the test.",
  [SQ + ": emplace, pop, consume, next_index", "include/xme/container/spsc_queue.hpp"])
p("SPSCQueue has no data race",
  "In every execution of one producer and one consumer (consumer popping only elements it has been told are available), every two conflicting accesses to a buffer slot by different threads are ordered by a release store and an acquire load.",
  "all schedules and stale-read choices",
  "A race may never manifest on the test machine; only a happens-before argument excludes it.",
  [SQ + ": emplace, pop, consume (memory orders)"])
p("SPSCQueue element lifetimes",
  "A slot is constructed only when it holds no live element, read and destroyed only when it does, and every successfully pushed element is destroyed exactly once by pop, consume or the destructor.",
  "all executions followed by destruction",
  "Ring-buffer wrap-around and destruction with pending elements over all histories.",
  [SQ + ": emplace, pop, consume, ~StaticSPSCQueue, ~DynamicSPSCQueue, clear"])
p("SPSCQueue capacity bound and meaning of a failed push",
  "At most capacity-1 elements are stored at any time, and push/emplace returns false exactly when capacity-1 elements are stored as far as the consumer's index value the producer just read tells; it then changes nothing.",
  "all executions, all capacities",
  "Relates a possibly stale observation to the abstract state in every execution.",
  [SQ + ": emplace, next_index"])
p("SPSCQueue availability counters are safe to act on",
  "If the producer calls write_available() and gets k, its next k pushes succeed; if the consumer calls read_available() and gets k, it may pop/consume k elements safely; both counters lie in [0, capacity-1] whichever of the two threads calls them.",
  "all executions, including unsigned wrap-around in the formulae",
  "Requires reasoning about stale indices and modular arithmetic for all index pairs.",
  [SQ + ": read_available, write_available"])
p("SPSCQueue push and pop are wait-free",
  "Every queue operation of either thread completes within a fixed number of its own steps regardless of what the other thread does or whether it stops forever.",
  "all states and all behaviours of the other thread",
  "Progress under arbitrary scheduling cannot be tested.",
  [SQ + ": emplace, pop, consume, read_available, write_available"])
p("SPSCQueue operations that throw leave the queue unchanged",
  "If the element constructor throws inside emplace, or the callback throws inside consume, neither index moves: the queue holds the same elements and stays usable.",
  "all states and all schedules",
  "Crash points in concurrent executions.",
  [SQ + ": emplace, consume"])
p("SPSCQueue needs (exactly) power-of-two capacities",
  "For every power of two up to 2^63 the index successor walks cyclically through all slots in bounds; for a dynamic queue whose capacity is not a power of two (assertions disabled) the queue is broken.",
  "all capacities",
  "Quantifies over all capacities.",
  [SQ + ": next_index", "include/xme/container/spsc_queue.hpp: SPSCQueue(std::size_t)"])
# ---------------------------------------------------------------- algorithms
p("find returns the first match on every SIMD path",
  "For integral element types of 1, 2, 4 and 8 bytes, with AVX2, SSE2 or no SIMD, find(first,last,v) returns the position of the first element equal to v, or last if there is none (for ranges that start at a multiple of the vector size or are shorter than one vector, and that do not touch the top of the address space).",
  "all lengths, all contents, all values, all element widths, all SIMD configurations",
  "Block/tail boundaries, lane masks and widths multiply; tests use four arrays.",
  ["include/xme/core/algorithm/find.hpp: find, find_simd"])
p("find reads only inside the range and is usable on every allocation",
  "find reads no byte outside [first,last) and has defined behaviour for any contiguous range of a supported element size.",
  "all lengths, all addresses (alignments)",
  "Misaligned vector loads may or may not trap depending on the compiler's instruction choice.",
  ["include/xme/core/algorithm/find.hpp: find, find_simd"])
p("find agrees with operator== for every element type",
  "For every element type of a supported size, find returns the first element that compares == to the value, as ranges::find does.",
  "all element types of size 1, 2, 4, 8 including floating point",
  "Only special values (signed zero, NaN) at particular positions distinguish bitwise from value equality.",
  ["include/xme/core/algorithm/find.hpp: find, find_simd"])
p("reverse on bytes reverses on every SIMD path",
  "For one-byte elements with AVX2, SSE3 or no SIMD, reverse(first,last) leaves the range reversed, touches nothing outside it and returns last.",
  "all lengths and contents",
  "Block counts, overlap in the middle and tails for all lengths.",
  ["include/xme/core/algorithm/reverse.hpp: reverse, reverse_simd"])
p("reverse on two-byte elements reverses",
  "For two-byte elements, in every configuration in which it compiles, reverse(first,last) leaves the range reversed.",
  "all lengths, contents and SIMD configurations",
  "Only lengths of at least two vector blocks take the SIMD path.",
  ["include/xme/core/algorithm/reverse.hpp: reverse, reverse_simd"])
p("has_single_bit decides powers of two; to_unsigned reduces modulo 2^w",
  "has_single_bit(n) is true exactly when n is a power of two, and to_unsigned(n) is the value congruent to n modulo 2^width in [0, 2^width), for every value and width.",
  "all values of all unsigned/signed widths",
  "2^64 values.",
  ["include/xme/core/bit/has_single_bit.hpp", "include/xme/core/utility/to_unsigned.hpp"])
# ---------------------------------------------------------------- ArrayView, iterators
p("ArrayView subviews denote the right elements",
  "first(n), last(n), subview(offset,count), in dynamic and static form, denote the first n, last n, and [offset, offset+count) elements of the viewed range, never reach outside it, and compose; views alias the underlying storage.",
  "all views, all offsets and counts meeting the (non-wrapping) bound",
  "All offsets/counts, and nesting of subviews to any depth.",
  [AV + ": subview, first, last, begin, end, size"])
p("ArrayView::subview rejects out-of-range requests",
  "subview(offset,count) asserts whenever [offset, offset+count) is not inside the view.",
  "all 64-bit offsets and counts",
  "Only wrap-around values distinguish the check from the intended one.",
  [AV + ": subview"])
p("ArrayView byte views",
  "as_bytes/as_writable_bytes view exactly size()*sizeof(T) bytes, namely the object representations of the elements in order, and a write through as_writable_bytes changes only the addressed element.",
  "all views",
  "All sizes and element widths.",
  [AV + ": as_bytes, as_writable_bytes, size_bytes"])
p("ReverseIterator enumerates the reversed range and obeys iterator arithmetic",
  "Iterating ReverseIterator(end) to ReverseIterator(begin) visits the elements in reverse order; it[n] is *(it+n); (it+n)-it = n; ++ and -- are inverse.",
  "all ranges, all offsets",
  "Laws over all positions.",
  ["include/xme/core/iterators/reverse_iterator.hpp"])
p("ReverseIterator ordering is consistent with its difference",
  "For reverse iterators a and b into the same range, a < b exactly when b - a > 0 (as the random-access iterator requirements demand).",
  "all pairs of positions",
  "The tests only compare for equality.",
  ["include/xme/core/iterators/reverse_iterator.hpp: operator<=>, operator-"])
p("ConstIterator and Array iterators obey the random access iterator laws",
  "Advancing by n and by m is advancing by n+m, differences and comparisons agree with positions, dereferencing agrees with indexing, pre/post increment return the new/old position.",
  "all positions and offsets",
  "Algebraic laws over all integers.",
  ["include/xme/core/iterators/const_iterator.hpp", ARR + ": Iterator"])
# ---------------------------------------------------------------- functional
p("Delegate owns its functor: destroyed exactly once over every history",
  "Over any sequence of constructions, moves, assignments (including self-move and nullptr), swaps and destructions of Delegates, every stored functor object (inline or heap) is destroyed exactly once and every heap cell freed exactly once, with none left when all delegates are destroyed.",
  "all histories over any number of delegates, functors of any size",
  "Ownership over all histories, both storage classes.",
  ["include/xme/core/functional/delegate.hpp: Delegate, FunctorManager"])
p("Delegate calls the functor most recently given to it",
  "Calling a delegate invokes the functor it currently holds with the given arguments; a default-constructed, null-assigned, null-function-pointer or moved-from delegate throws bad_function_call and converts to false.",
  "all histories",
  "State-dependent behaviour after arbitrary histories.",
  ["include/xme/core/functional/delegate.hpp: operator(), operator bool, Delegate(Delegate&&)"])
p("Delegate::handle returns the stored functor",
  "handle<F>() returns a pointer to the stored functor when its type is F and nullptr otherwise.",
  "all functor types, whether stored inline or on the heap",
  "Depends on the size class of the functor.",
  ["include/xme/core/functional/delegate.hpp: handle"])
p("bind_front and bind_back argument order",
  "bind_front(f, a...)(b...) calls f(a..., b...) and bind_back(f, a...)(b...) calls f(b..., a...), for any numbers of arguments, and nesting binds composes accordingly.",
  "all argument lists",
  "Arbitrary arity.",
  ["include/xme/core/functional/bind.hpp"])
p("ScopedDelegate runs its callable exactly once",
  "On every exit from a scope (normal or by exception at any statement) each ScopedDelegate constructed in it runs its callable exactly once, in reverse order of construction.",
  "all scopes, all exit points",
  "Crash points are universally quantified.",
  ["include/xme/core/functional/scoped_delegate.hpp"])
# ---------------------------------------------------------------- tuple / pair
p("tuple_cat concatenates",
  "tuple_cat(t1, ..., tn) has the elements of t1, then t2, ..., in order, for any number of tuples of any sizes, including empty ones.",
  "all lists of tuples",
  "Compile-time index computation by recursion; all arities.",
  ["include/xme/container/tuple.hpp: TupleCat, tuple_cat_impl, tuple_cat"])
p("Tuple and Pair get, assign, swap and apply act element-wise",
  "get<I> reads/writes element I only; assignment from a tuple-like copies every element; swap exchanges all elements and is an involution; apply(f,t) calls f with the elements in order; conversion to an aggregate passes the elements in order.",
  "all tuples of all arities",
  "Arbitrary arity.",
  ["include/xme/container/tuple.hpp", "private/container/tuple_base.hpp", "include/xme/container/pair.hpp"])
p("Tuple and Pair comparison is lexicographic",
  "operator== is element-wise equality and operator<=> is lexicographic; for element types with a total order the result is a total order.",
  "all tuples of equal shape",
  "Order laws over all values.",
  ["private/container/tuple_base.hpp: TypeMap, TupleElement", "include/xme/container/pair.hpp"])
# ---------------------------------------------------------------- math
p("Vector arithmetic is component-wise in every specialisation",
  "For every size, including the hand-written 2, 3 and 4 component versions, component i of v op w, v op s, -v and the compound assignments is v[i] op w[i] (op s), with scalars converted to the element type.",
  "all sizes, all element types (no algebraic law assumed), all values",
  "Four separate hand-expanded implementations must agree for all inputs.",
  ["include/xme/math/vector.hpp", "include/xme/math/vectors/vector2.hpp", "include/xme/math/vectors/vector3.hpp", "include/xme/math/vectors/vector4.hpp"])
p("dot and cross products obey their algebra",
  "dot is bilinear and symmetric; cross(v,w) is orthogonal to v and w, antisymmetric, and satisfies Lagrange's identity (exact arithmetic); over the real numbers it is zero exactly for parallel vectors.",
  "all vectors over a commutative ring",
  "Identities over all inputs.",
  ["include/xme/math/vectors/geometry.hpp: dot, cross"])
p("length, distance, normalize and reflect",
  "Over the reals: length is the Euclidean norm, distance is the Euclidean metric, normalize of a non-zero vector has length 1 and the same direction, reflect about a unit normal is an involution that preserves length.",
  "all real vectors of every size",
  "Real-number identities.",
  ["include/xme/math/vectors/geometry.hpp", "include/xme/math/vector.hpp: length, normalize"])
p("Matrix product is the mathematical product",
  "(A*B)[j][i] is the sum over k of A[k][i]*B[j][k] and (A*v)[i] the sum over k of A[k][i]*v[k], in generic and 4x4 versions; over a ring the product is associative, distributes and has the default-constructed matrix as identity.",
  "all sizes and values",
  "All dimensions.",
  ["include/xme/math/matrix.hpp", "include/xme/math/matrices/matrix4x4.hpp"])
p("transpose, outer and Hadamard products, row/column",
  "transpose swaps indices, is an involution and reverses products; outer_product(u,v)[j][i] = u[i]*v[j]; hadamard_product multiplies entries; row(i)/column(j) extract entries.",
  "all sizes and values",
  "All dimensions, rectangular shapes.",
  ["include/xme/math/matrices/functions.hpp", "include/xme/math/matrix.hpp: row, column"])
p("determinant is the determinant",
  "The 2x2, 3x3 and 4x4 determinant functions equal the cofactor (Laplace) determinant over any commutative ring; hence det(A*B) = det A * det B, det of a transpose is the same and det of the identity is 1.",
  "all matrices of size 2, 3, 4 over a commutative ring",
  "Polynomial identities in up to 32 variables.",
  ["include/xme/math/matrices/functions.hpp: determinant"])
p("translate, scale and rotate post-multiply the right transformation",
  "translate(M,v), scale(M,v), rotate(M,a,n) equal M times the translation, scaling and rotation matrices; the rotation for a unit axis is orthogonal with determinant 1, fixes the axis, and rotations about one axis add their angles.",
  "all matrices, vectors, real angles and unit axes",
  "Real identities.",
  ["include/xme/math/matrices/transformation.hpp"])
p("rotate accepts integer axis vectors",
  "rotate(M, a, n) with an integer-typed axis vector n gives the same rotation as with the same axis in floating point.",
  "all angles and integer unit axes",
  "Only an implicit conversion deep in the formula distinguishes the two.",
  ["include/xme/math/matrices/transformation.hpp: rotate", "include/xme/math/vectors/vector3.hpp: operator*"])
p("Perspective projection by field of view",
  "perspective_rh/lh(fov, aspect, near, far) map the near plane to -1, the far plane to +1 and the frustum edges at the given angle to +-1 in x and y after the perspective divide; perspective() is the right-handed version by default.",
  "all fov, aspect, 0 < near < far over the reals",
  "Identity over all parameters.",
  ["include/xme/math/matrices/perspective.hpp: perspective_rh, perspective_lh, perspective"])
p("Frustum and orthographic projections map the view box to the clip cube",
  "perspective_lh/rh(left,right,bottom,top,near,far) and ortho_lh/rh(left,...,far) map the corners of the view volume to the corners of the [-1,1] cube, and perspective() under the left-handed setting is the left-handed projection.",
  "all view volumes",
  "Not tested at all; wrong entries only show for asymmetric volumes.",
  ["include/xme/math/matrices/perspective.hpp: perspective_lh, perspective_rh, ortho_lh, ortho_rh, perspective"])
p("Quaternion product is Hamilton's product",
  "Quaternion addition is component-wise; the product is associative, distributes, satisfies i^2=j^2=k^2=ijk=-1, has unit 1, and the squared norm is multiplicative. Over the real numbers every quaternion but zero has an inverse.",
  "all quaternions over a commutative ring",
  "Polynomial identities.",
  ["include/xme/math/quaternion.hpp"])
p("lerp, mix, sign",
  "lerp(a,b,0)=a, lerp(a,b,1)=b, lerp is affine in the parameter and lies between the endpoints for parameters in [0,1]; the bool form selects; mix is lerp; sign is -1, 0 or 1 according to the sign and n = sign(n)*|n|.",
  "all values over the reals / all integers",
  "Identity over all inputs.",
  ["include/xme/math/vectors/functions.hpp", "include/xme/math/scalars/functions.hpp", "include/xme/math/glsl_mapping.hpp: mix"])
p("faceforward follows its documented rule",
  "faceforward(v,i,n) returns -v if dot(i,n) is positive and v otherwise.",
  "all vectors",
  "Only perpendicular inputs distinguish the code from the documentation.",
  ["include/xme/math/vectors/geometry.hpp: faceforward"])
p("radians and degrees are inverse; mathematical constants are consistent",
  "degrees(radians(x)) = x over the reals; radians and degrees are linear and radians(180) is the library's pi; sec, csc and cot are the reciprocals of cos, sin and tan, and arcsin, arccos and arctan the inverse functions; the algebraic and derived constants (square and cube roots, golden ratio, plastic number, multiples, squares and inverses of pi and e) agree with their defining equations to the printed precision.",
  "all reals x; all listed constants",
  "A digit error in an 80-digit literal is invisible in double precision tests.",
  ["include/xme/math/scalars/trigonometry.hpp", "include/xme/math/constants.hpp"])
# ---------------------------------------------------------------- hal
p("SharedLibrary balances opens and closes",
  "Every successfully opened library handle is closed exactly once over any history of open, close, move, move-assign and destruction, and is_open() tells whether a handle is held.",
  "all histories",
  "Double close / leak only shows for particular orders of calls.",
  ["include/xme/hal/shared_library.hpp"])
p("Environment variable helpers",
  "set_environment_variable(name, value) followed by get_environment_variable(name) yields value (nothing for an empty value) and affects no other variable, for every string_view name and value.",
  "all string views, including views that are not NUL-terminated",
  "string_view arguments into larger buffers are not tested.",
  ["include/xme/hal/linux/platform.hpp"])
p("SIMD feature macros are closed downwards",
  "Enabling a SIMD level enables every lower level and no higher one, so enabled_simd is always the mask of all levels up to the highest requested one; | and & on ESimd act bit-wise.",
  "all combinations of requested levels",
  "2^10 macro configurations.",
  ["include/xme/hal/simd_detection.hpp"])
# ---------------------------------------------------------------- added later
p("LinkedList insertion of its own elements",
  "insert_after(pos, *it) inserts a copy of the value it designates, also when it points into the same list, and on an exception changes nothing.",
  "all lists, all positions pos and it",
  "Aliasing between argument and container is rarely tested.",
  ["include/xme/container/linked_list.hpp: insert_after"])
p("reverse without SIMD on elements of any size",
  "Without SIMD, reverse(first,last) reverses the order of the elements, keeps the bytes of each, touches nothing outside the range and returns last; reversing a byte range twice restores it in every configuration.",
  "all element sizes, lengths, contents",
  "Odd and even lengths times element sizes.",
  ["include/xme/core/algorithm/reverse.hpp: reverse"])
p("find stays within the C++ pointer rules when there is slack",
  "If the allocation extends at least one vector beyond the range, every pointer find forms is within the allocation or one past its end, and the result is right.",
  "all ranges, values, element sizes, SIMD configurations",
  "Pointer arithmetic beyond the end is undefined without any visible effect.",
  ["include/xme/core/algorithm/find.hpp: find"])
p("Reverse iterators of different iterator types compare by position",
  "For a ReverseIterator over T* and one over const T* (or another iterator type) into the same array, == is true exactly when they are at the same position, also at rend(), and <, >, <= and >= agree with the order of the positions.",
  "all arrays, all pairs of positions including rend()",
  "Comparing with rend() computes a pointer before the array; on common platforms that yields the expected answer, so a test passes although the behaviour is undefined.",
  ["include/xme/core/iterators/reverse_iterator.hpp: operator== (template), operator<=> (template), operator->"])

p("Vector constructors keep the order of their arguments",
  "A vector built from scalars, from one scalar, from another vector with conversion, or from a mix of scalars and shorter vectors has the arguments' components in order, each converted to the element type; missing trailing components are zero.",
  "all sizes, element types, conversions and values",
  "A swapped pair of components in one of the many overloads shows only if that overload is tested with distinct values.",
  ["include/xme/math/vector.hpp", "include/xme/math/vectors/vector2.hpp", "include/xme/math/vectors/vector3.hpp", "include/xme/math/vectors/vector4.hpp"])
p("Vector, matrix and quaternion comparison",
  "== holds exactly when all components are equal; <=> gives the result of the first pair of components that are not equivalent, also when components are unordered.",
  "all sizes and values",
  "Unordered components (NaN) and ties are rarely tested.",
  ["include/xme/math/vector.hpp", "include/xme/math/matrix.hpp", "include/xme/math/quaternion.hpp"])
p("lerp with an unsigned parameter",
  "lerp(a, b, p) lies on the line through a and b at parameter p also when p has an unsigned integer type.",
  "all vectors and all values of the unsigned type",
  "1 - p wraps only for p >= 2, which a test of interpolation does not use.",
  ["include/xme/math/vectors/functions.hpp: lerp"])

p("Matrix element-wise operators",
  "+, -, / between matrices, every operator between a matrix and a scalar, negation and the compound assignments act entry by entry, with the right operand order, and leave the other operand unchanged.",
  "all sizes, entries and operators",
  "One wrong column index or operand order shows only for asymmetric matrices of that size.",
  ["include/xme/math/matrix.hpp", "include/xme/math/matrices/matrix4x4.hpp"])
p("Constants defined by a series or a limit",
  "The literals of the reciprocal Fibonacci constant, Gauss's constant, zeta(2), zeta(3), zeta(4), Catalan's constant and the Euler-Mascheroni constant agree to the last digit with the limits that define them.",
  "all digits of all seven literals",
  "Double precision tests see 16 of the 80 digits, and most of these numbers have no closed form to compare with.",
  ["include/xme/math/constants.hpp"])

p("Any combination of SIMD levels can be requested",
  "Defining several XME_SIMD_ENABLE_ macros on the command line is well-formed: the header defines no macro again with other contents.",
  "all combinations of requested levels and macro contents",
  "Tests define a single level.",
  ["include/xme/hal/simd_detection.hpp"])
p("SIMD code uses only instructions of the enabled levels",
  "Under every request of SIMD levels the intrinsics in find and reverse belong to the enabled levels.",
  "all combinations of requested levels and all element sizes",
  "Tests run on one machine with AVX2 and -march=native.",
  ["include/xme/hal/simd_detection.hpp", "include/xme/core/algorithm/find.hpp: find_simd", "include/xme/core/algorithm/reverse.hpp: reverse_simd"])

p("Constants are the nearest numbers of their type",
  "For float, double and long double each constant is the representable number nearest to the number it stands for, although the literal is rounded to long double first and then to the type.",
  "all constants, all three long double formats in use (53, 64 and 113 bits) and the three types",
  "Tests compare with constants computed by the same compiler, on one long double format, with a tolerance.",
  ["include/xme/math/constants.hpp"])
p("dot, length and distance in floating point",
  "With IEEE arithmetic of any precision the result of dot, length and distance, when it is a number, differs from the exact value by at most the usual (1+u)^n - 1 relative bound (n operations, unit roundoff u) plus a term for underflow; dot(v, w) equals dot(w, v) exactly, also for infinities and NaN; dot is a number if the exact products are not within that error of an overflow.",
  "all vectors of all sizes, all precisions and exponent ranges",
  "A test compares a few values with a tolerance; the worst case of rounding is not among them.",
  ["include/xme/math/vectors/geometry.hpp: dot, length, distance"])
p("normalize gives a unit vector in floating point",
  "For every vector of finite floats that is not zero, normalize returns finite components within a few units of roundoff of v / |v|.",
  "all vectors of finite floating-point components that are not all zero",
  "Tests use components near 1; the squares overflow or underflow for others.",
  ["include/xme/math/vectors/geometry.hpp: normalize", "include/xme/math/vector.hpp: normalize"])
p("lerp meets its ends exactly in floating point",
  "For all finite vectors lerp(a, b, 0) is a and lerp(a, b, 1) is b, without rounding error, and in between each component is within a relative error of three roundings of the exact point of the line.",
  "all finite vectors of all sizes, all parameters in [0, 1]",
  "The cheaper formula a + p (b - a) misses b for most pairs, but not for those with small integers that a test uses.",
  ["include/xme/math/vectors/functions.hpp: lerp"])
p("lerp between equal vectors is that vector",
  "lerp(a, a, p) is a for every finite vector a and every p in [0, 1].",
  "all finite vectors, all p in [0, 1], IEEE arithmetic",
  "Fails only when rounding p * a and (1 - p) * a loses a bit, for instance a = 3 and p = 0.1f.",
  ["include/xme/math/vectors/functions.hpp: lerp"])

p("Alignment of the storage of AlignedData",
  "An AlignedData<T, Align> has room for a T at a multiple of Align, wherever it is placed, and a T in it is aligned for T for every accepted Align; with the default Align it has the size of T.",
  "all sizes and alignments of T, all accepted values of Align, all addresses",
  "Wrong alignment often works on x86 and depends on where the object is placed.",
  ["include/xme/container/aligned_data.hpp"])
p("AlignedData copies like the object in it and destroys it",
  "Constructing an AlignedData from arguments makes the T that its constructor makes; a copy of an AlignedData, const or not, has the content of the original; the object made by a constructor is destroyed with the AlignedData.",
  "all types T, all arguments, const and non-const originals, lvalues and rvalues",
  "Which constructor overload resolution selects depends on constness; tests copy const objects or none.",
  ["include/xme/container/aligned_data.hpp"])
p("Layout of a list node",
  "In every node of a linked list the link and the element do not overlap, lie within the node and are aligned, also for over-aligned elements.",
  "all sizes and alignments of T, all node addresses",
  "Tests use element types with an alignment of at most 8.",
  ["private/container/linked_list_base.hpp: forward_node", "include/xme/container/aligned_data.hpp"])
p("The queue's indices do not share a cache line",
  "The write index and the read index of the queue are in different 64 byte lines, wherever the queue is placed, and slot i as the functions compute it is the storage of element i of the buffer.",
  "all addresses of the queue, all element sizes and alignments, all indices",
  "False sharing only costs time; a slot at a wrong address shows only for element types with unusual sizes.",
  ["private/container/spsc_queue_base.hpp"])
p("The queue's pointer arithmetic stays inside one array",
  "The pointer to slot i is formed within the array it points into, as [expr.add] requires, for every capacity.",
  "all capacities and indices",
  "The addresses are right, so a test cannot see undefined pointer arithmetic; constant evaluation or a sanitizer could.",
  ["private/container/spsc_queue_base.hpp: data"])
p("Detection of architecture",
  "XME_ARCH_X86 and XME_ARCH_ARM are both defined, as 1 or 0, and tell whether the target is x86 or ARM, for 32 and 64 bit targets.",
  "all sets of predefined macros",
  "A test runs on one target.",
  ["include/xme/hal/architecture_detection.hpp", "include/xme/setup.hpp"])
p("Detection of compiler and language version",
  "Clang is not taken for GCC although it defines __GNUC__; exactly one of XME_CPP20 and XME_CPP23 is defined from C++20 on, by the value of __cplusplus; XME_CONSTEXPR20 is constexpr exactly if the compiler supports the C++20 rules; XME_INLINE forces inlining exactly where the attribute exists; no other macro changes.",
  "all sets of predefined macros, all values of __cplusplus and __cpp_constexpr",
  "A test runs with one compiler and one language version.",
  ["include/xme/hal/compiler_detection.hpp", "include/xme/setup.hpp"])
p("Detection of the standard library",
  "XME_LIBSTD_GCC is defined with libstdc++ and XME_LIBSTD_CLANG with libc++.",
  "all sets of predefined macros",
  "Needs a build with the other standard library.",
  ["include/xme/hal/std_detection.hpp"])
p("Detection of the platform and export macros",
  "The XME_PLATFORM_ macros are defined as 1 or 0 according to the target, and on each detected platform DLLEXPORT and DLLIMPORT are defined as it requires.",
  "all sets of predefined macros",
  "A test runs on one platform.",
  ["include/xme/hal/platform_macros.hpp", "include/xme/hal/linux/platform_macros.hpp", "include/xme/hal/windows/platform_macros.hpp"])
p("SharedLibrary and the environment functions exist on every detected platform",
  "On Windows, macOS and Linux the class SharedLibrary is well-formed and its functions do something, and get_environment_variable and set_environment_variable are defined.",
  "all sets of predefined macros of the three platforms",
  "A test runs on one platform.",
  ["include/xme/hal/shared_library.hpp", "include/xme/hal/platform.hpp", "include/xme/hal/linux/platform.hpp", "include/xme/hal/windows/platform.hpp"])
p("Integer vectors wrap around", "For vectors of bool, of unsigned integers and of the signed integers shorter than int, the sum, difference, product, negation, dot product, cross product and reflection are defined for all components and are the exact ones reduced to the type (for bool: whether they are not zero); quotients are defined if no divisor is zero.",
  "all vectors of all lengths of these types, all operands", "The arithmetic is done in int after promotion and converted back; tests use small floats.",
  ["include/xme/math/vector.hpp", "include/xme/math/vectors/geometry.hpp"])
p("Vectors of int and long are exact whenever the results fit", "For vectors of signed integers of 32 or 64 bits an operator, the dot product, the cross product and reflect give the exact result, and the operation is undefined exactly if an exact intermediate result does not fit or a divisor is zero; sign gives the sign of every component.",
  "all vectors of all lengths, all operands, 32 and 64 bits", "Signed overflow is undefined and needs operands near the limits.",
  ["include/xme/math/vector.hpp", "include/xme/math/vectors/geometry.hpp", "include/xme/math/vectors/functions.hpp: sign"])
p("The length of an integer vector is the exact length rounded down", "length() of a vector of integers is defined and is the exact length, rounded down to an integer (for Vector<T, 4>: rounded to a double).",
  "all integer vectors of all lengths", "Depends on promotion, conversion to double, the rounding of sqrt and truncation; fails only for large components or particular lengths.",
  ["include/xme/math/vector.hpp: length", "include/xme/math/vectors/vector2.hpp: length", "include/xme/math/vectors/vector3.hpp: length", "include/xme/math/vectors/vector4.hpp: length"])
p("forward_like gives what std::forward_like gives",
  "xme::forward_like<T>(x) has the type and value category of std::forward_like<T>(x): const is added if T refers to const, and the result is an lvalue exactly if T is an lvalue reference.",
  "all types T, with all cv-qualifiers and references, all expressions x", "There are infinitely many types; the test checks a few combinations with static_assert.",
  ["include/xme/core/utility/forward_like.hpp"])
p("get<I> of a tuple or pair has the type of std::get<I>",
  "For an lvalue T& or const T&, for an rvalue T&& or const T&&, and for elements that are references what reference collapsing gives; with and without explicit object parameters.",
  "all element types, all numbers of elements, const and non-const tuples, all value categories", "Each combination needs its own instantiation, and a wrong one may not compile at all.",
  ["private/container/tuple_base.hpp: TupleElement", "include/xme/container/tuple.hpp: get", "include/xme/container/pair.hpp: operator[], get"])
p("Traits and concepts tell the types they name",
  "CIntegral is the disjoint union of CSignedIntegral and CUnsignedIntegral, CArithmetic that of CIntegral and CFloatingPoint; is_scoped_enum tells exactly the scoped enumerations, is_initializer_list the initializer lists; CDifferentFrom is inequality, CDifferentFromSelf inequality without references and cv-qualifiers.",
  "all types", "There are infinitely many types.",
  ["include/xme/core/concepts/arithmetic.hpp", "include/xme/core/concepts/different_from.hpp", "include/xme/core/type_traits/is_scoped_enum.hpp", "include/xme/core/type_traits/is_initializer_list.hpp"])
p("tuple_element gives the declared element type",
  "std::tuple_element_t<I, Tuple<T...>> is exactly the I-th T and std::tuple_element_t<I, Pair<T, U>> is T or U, with cv-qualifiers and references.",
  "all element types", "There are infinitely many types.",
  ["include/xme/container/tuple.hpp: tuple_element", "include/xme/container/pair.hpp: tuple_element", "private/container/tuple_base.hpp: declval"])
p("tuple_cat concatenates the element types of any tuples",
  "tuple_cat(t...) compiles for tuples that are lvalues, const lvalues or rvalues, and gives a tuple with all element types in order, each initialised from its element.",
  "all numbers of tuples, all element types, all constness and value categories", "Templates that are never instantiated are not compiled; the tests pass lvalues.",
  ["include/xme/container/tuple.hpp: tuple_cat, tuple_cat_impl"])
p("Tuples and pairs can be assigned",
  "Assigning a tuple or pair of the same type copies it (moves it from a non-const rvalue); assigning another tuple-like object, or one with reference elements (tie), assigns the elements one by one.",
  "all element types, const and non-const sources, lvalues and rvalues", "Which operator overload resolution selects, and whether it is deleted, depends on constness and on reference elements.",
  ["include/xme/container/tuple.hpp: operator=", "include/xme/container/pair.hpp: operator="])
p("Copying a wrapper never wraps it",
  "Constructing a Delegate, BindFront, BindBack or ConstIterator from one of the same type copies or moves it and never selects the constructor template that would wrap it.",
  "all types, const and non-const arguments, all value categories", "For a non-const lvalue an unconstrained template would be the better match; tests copy const objects.",
  ["include/xme/core/functional/bind.hpp", "include/xme/core/functional/delegate.hpp", "include/xme/core/iterators/const_iterator.hpp", "include/xme/core/concepts/different_from.hpp"])
p("Float vector operators give the nearest number",
  "Every component of v + w, v - w, v * w, v / w and of the operators with a scalar is a number of the type nearest to the exact result, if that lies in the range of the type and no divisor is zero; -v is exact, also for the sign of zero.",
  "all vectors of all lengths of any IEEE format, all operands", "Needs the exact result for comparison, and all operands near halfway points.",
  ["include/xme/math/vector.hpp", "include/xme/math/vectors/vector2.hpp", "include/xme/math/vectors/vector3.hpp", "include/xme/math/vectors/vector4.hpp"])
p("Symmetries survive rounding",
  "In floating point -(-v) = v, v + w = w + v, v - w = v + -w, length(-v) = length(v), distance(v, w) = distance(w, v) and transpose(A * B) = transpose(B) * transpose(A) hold exactly, also for infinities and NaN; w - v is -(v - w), dot(-v, w) is -dot(v, w) and cross(w, v) is -cross(v, w), up to the sign of zero; v - v is +0.",
  "all vectors of all lengths of any IEEE format", "Rounding, overflow, NaN and signed zeros make it unclear which identities survive; tests use small exact numbers.",
  ["include/xme/math/vector.hpp", "include/xme/math/vectors/geometry.hpp", "include/xme/math/matrix.hpp"])
p("Rounding error of cross and of matrix products",
  "In floating point every component of a cross product, of a matrix times a vector and of a matrix product is within the error bound of numerical analysis; the identity matrix times a vector of numbers is that vector.",
  "all vectors, all matrices of all dimensions of any IEEE format", "Needs exact results for comparison; the bound has to hold for all operands.",
  ["include/xme/math/vectors/geometry.hpp: cross", "include/xme/math/matrix.hpp", "include/xme/math/matrices/functions.hpp"])
p("Comparison and sign of floats",
  "Vectors of numbers are equal exactly if their components are equal as real numbers; a vector is equal to itself unless it contains NaN; <=> compares the first components that differ and is unordered if one of these is NaN; sign gives -1, 0 or 1, and 0 for zeros and NaN.",
  "all vectors of all lengths of any IEEE format", "NaN and signed zeros are rarely tested.",
  ["include/xme/math/vector.hpp", "include/xme/math/scalars/functions.hpp: sign"])
p("Rounding error of radians and degrees",
  "radians(x) of every float and double is a number within 4 units of roundoff of the exact angle; degrees is within the corresponding bound whenever it is a number.",
  "all floats and doubles", "Needs the exact value of pi for comparison, for all numbers.",
  ["include/xme/math/scalars/trigonometry.hpp: radians, degrees", "include/xme/math/constants.hpp: pi_v"])
p("Conditional noexcept specifications are exact",
  "For Tuple and Pair swap, apply, make_pair, bind_back and calls of bound functions, an exception thrown by an operation of the user's types reaches the caller and never ends the program, and noexcept(f(...)) is true exactly if none of the operations performed can throw; make_tuple lets exceptions through too, but is never noexcept for a non-empty list.",
  "all element types and callables, with any of their operations throwing or not; all numbers of elements; all value categories", "noexcept is computed by the compiler from traits of each instantiation; tests instantiate few types and rarely throw from a swap, a copy or a call.",
  ["include/xme/container/tuple.hpp: swap, apply, make_tuple", "include/xme/container/pair.hpp: swap, make_pair", "include/xme/core/functional/bind.hpp: BindBack, operator()"])
p("An exception of a user's operation reaches the caller",
  "If an operation of the user's types (comparator, copy, move, swap, comparison, call) throws inside a function of the library, the exception propagates to the caller instead of ending the program.",
  "all element types, comparators and callables; heaps of every size; all ranges", "Whether an exception passes depends on every noexcept on its way; the failure is a call of std::terminate, and tests use types that do not throw.",
  ["include/xme/container/heap.hpp: pop, push, heapfy_up, heapfy_down", "include/xme/container/pair.hpp: operator=", "include/xme/container/tuple.hpp: operator==", "include/xme/core/functional/bind.hpp", "include/xme/core/functional/scoped_delegate.hpp", "include/xme/core/functional/delegate.hpp: operator=", "include/xme/container/aligned_data.hpp", "include/xme/core/algorithm/find.hpp", "include/xme/core/algorithm/reverse.hpp"])
p("The noexcept functions of the containers cannot throw",
  "Move construction, move assignment, swap, clear, pop_back, erase_after, pop_front, reverse and the destructors of Array and LinkedList allocate nothing and copy no element, so that no exception can arise in them.",
  "all arrays and lists, all states, whatever allocations and element copies would do", "The absence of allocations has to hold on every path and for every state.",
  ["include/xme/container/array.hpp", "include/xme/container/linked_list.hpp"])
p("LinkedList from ranges of list elements",
  "Constructing, assigning or inserting from a range [first, last) of elements of any list, the same list included, gives the values the range had before the call.",
  "all lists, all positions, all subranges of all lists", "Aliasing of source and destination is rarely tested; the bad case does not fail, it never returns.",
  ["include/xme/container/linked_list.hpp: LinkedList(It, S), assign, insert_after"])
p("Array returns memory to the allocator it came from",
  "Every block an array obtains is returned exactly once, to an allocator equal to the one it was allocated with and with the size it was allocated with; none is lost, whatever throws.",
  "all allocator types (always equal or not, propagating on swap or not, equal default values or not), all allocators passed, all histories of any number of arrays", "std::allocator hides every mix-up because all its values are equal; tests use no other allocator.",
  ["include/xme/container/array.hpp: constructors, destructor, operator=, swap, insert, grow_storage, shrink_storage, realloc_insert"])
p("An array keeps the allocator it was given",
  "No operation of the array changes the allocator given at construction, except that assignment and swap take over the allocator of the other array if allocators propagate on swap.",
  "all allocator types, all histories of any number of arrays, all operations, returning or throwing", "The allocator has no accessor; a wrong one shows only as memory taken from elsewhere.",
  ["include/xme/container/array.hpp: operator=, swap, insert"])
p("LinkedList returns nodes to the allocator they came from",
  "Every node of a list belongs to that list only and is returned to an allocator equal to the one it was allocated with, also after moves; as long as nothing throws, none is lost.",
  "all allocator types, all histories of any number of lists", "std::allocator hides every mix-up because all its values are equal; tests use no other allocator.",
  ["include/xme/container/linked_list.hpp: move constructor, move assignment, create_node, erase_after, assign"])
p("Array takes every element of a range, whatever its iterators",
  "push_back and insert with a range put all elements of the range into the array, in order, for every range they accept: multi-pass and single-pass iterators, with or without a known size.",
  "all arrays, positions and ranges of every kind of input iterator, all histories, whatever throws", "Tests pass pointers or iterators of containers; an iterator over a stream can be gone through once only.",
  ["include/xme/container/array.hpp: push_back(It, S), push_back(R&&), insert(const_iterator, It, S), insert(const_iterator, R&&)"])
p("LinkedList and Heap take every element of a range, whatever its iterators",
  "Constructing, assigning and inserting from a range of multi-pass or single-pass iterators gives the container all elements of the range: in order for lists, as a heap for heaps. A call that throws leaves the other containers alone, and of its elements a prefix.",
  "all lists, heaps, positions and ranges of every kind of input iterator, all histories, whatever throws", "Tests pass pointers or iterators of containers; an iterator over a stream can be gone through once only.",
  ["include/xme/container/linked_list.hpp: LinkedList(It, S), assign, insert_after, range_initialize", "include/xme/container/heap.hpp: Heap(It, S), Heap(R&&)"])
p("What a range function accepts compiles",
  "A call with a range that meets the constraints of a function of Array, LinkedList or Heap, of find or of reverse compiles: no error inside the body.",
  "all range types (iterator category, sentinel, move-only iterators, with or without a size, element size), all functions, all SIMD levels", "Each combination of types is a program of its own; tests instantiate a few with pointers.",
  ["include/xme/container/array.hpp", "include/xme/container/linked_list.hpp", "include/xme/container/heap.hpp", "include/xme/ranges/uninitialized.hpp", "include/xme/core/algorithm/find.hpp", "include/xme/core/algorithm/reverse.hpp"])
p("Const iterators give no write access and stay iterators",
  "make_const_iterator gives an iterator over the same values through which nothing can be changed, models the same iterator concepts as its argument, and leaves what is read-only already as it is.",
  "all iterator types", "A lost concept or write access shows only in programs that ask for it; each iterator type is an instantiation of its own.",
  ["include/xme/core/iterators/const_iterator.hpp", "include/xme/core/iterators/iterator_traits.hpp", "include/xme/core/concepts/constant_iterator.hpp"])
p("Headers can be included alone and in any order",
  "Every header compiles when it is included on its own, and every sequence of headers compiles in every order.",
  "all sequences of #include directives of library headers, of any length and with repetitions", "Each test file includes its headers in one order; the number of orders is unbounded.",
  ["include/xme/container/container.hpp", "include/xme/container/array_view.hpp", "include/xme/container/linked_list.hpp", "include/xme/container/spsc_queue.hpp", "include/xme/ranges/destroy.hpp"])
p("Headers include what they use and clean up their macros",
  "Whatever headers have been included before, and in spite of the cycle between container.hpp and spsc_queue.hpp, each name of the library is declared before a header uses it, no helper macro is defined twice, and none of them is left defined.",
  "all sequences of #include directives of library headers, of any length and with repetitions", "Each test file includes its headers in one order; the number of orders is unbounded.",
  ["include/xme", "private/container"])
p("The modules export what they list",
  "Every module interface unit compiles, and each name that it exports is declared by the headers it includes.",
  "all modules", "The modules are built only with an option of their own, which the tests do not set.",
  ["modules/container/container.cppm", "modules/math/math.cppm", "modules/core"])
p("Containers can be copied, moved, passed and returned by value",
  "Array, LinkedList and Heap can be copied and moved from an object of the same class in every form of initialisation (C b(a), C b = a, parameters and results by value); an rvalue is moved, everything else is copied, and the constructor from a range is never taken instead, also for an object of a derived class.",
  "all three containers; all value categories; const or not; objects of the class or of a derived one; all element types, also those that the container itself converts to", "Which constructor is chosen is decided per type and form of initialisation; each is a program of its own, and those that do not compile cannot be tests.",
  ["include/xme/container/array.hpp: constructors", "include/xme/container/linked_list.hpp: constructors", "include/xme/container/heap.hpp: constructors"])
p("Adding a value adds that value",
  "push_back, insert, insert_after and push_front with an argument of the element type add one element with that value, whatever the element type is; with a range of other type they add its elements.",
  "all element types made of numbers, pointers, strings, paths, std::any, C arrays and nested containers; all argument types, const or not, of all value categories", "Whether an argument is an element or a range is decided by overload resolution for each pair of types; tests use numbers.",
  ["include/xme/container/array.hpp: push_back, insert", "include/xme/container/linked_list.hpp: push_front, insert_after"])
p("Views are made from the sequences they can show",
  "An ArrayView<T> can be made from an array, std::array, contiguous range or view exactly if its elements are T, or T without const, and the number of elements fits; it then finds each element at its index.",
  "all element types with any inheritance between them, const or not; all sizes, static or dynamic; all kinds of source", "A source that should not be accepted compiles and reads wrong memory only for indices above 0 and classes of other size; a source that should be accepted does not compile.",
  ["include/xme/container/array_view.hpp: constructors, operator[]"])
p("Vectors, matrices and quaternions are packed arrays of their components",
  "There is no padding: v[i] designates component i at offset i * sizeof(T), whether the class keeps members or an array, and m[col][row] component col * rows + row, so that objects can be handed to graphics interfaces as arrays; an index that is too large is caught by an assertion.",
  "all element sizes and alignments, all numbers of components, rows and columns, all indices", "Layout holds for every instantiation; tests read back through the same operator.",
  ["include/xme/math/vector.hpp: operator[]", "include/xme/math/vectors/vector2.hpp", "include/xme/math/vectors/vector3.hpp", "include/xme/math/vectors/vector4.hpp", "include/xme/math/matrix.hpp", "include/xme/math/matrices/matrix4x4.hpp", "include/xme/math/quaternion.hpp: operator[]"])
p("Constexpr functions that index components work in constant expressions",
  "operator[] of vectors and quaternions, dot, row and the constructors of matrices, which are all constexpr, can be evaluated at compile time.",
  "all element types, all numbers of components, rows and columns, all indices", "Whether an expression is constant depends on rules about pointers that have no effect at run time; tests evaluate at run time.",
  ["include/xme/math/vectors/vector2.hpp: operator[]", "include/xme/math/vectors/vector3.hpp: operator[]", "include/xme/math/vectors/vector4.hpp: operator[]", "include/xme/math/vectors/geometry.hpp: dot", "include/xme/math/matrix.hpp: Matrix(U), row"])
p("Matrices can be made from columns and from matrices of other element types",
  "A matrix can be made from exactly as many columns as it has, of the right number of components, whatever their element types; and from a matrix of the same size with other elements.",
  "all numbers of rows and columns, all element types, all numbers of arguments", "Each combination of types and sizes is an instantiation of its own; those that do not compile cannot be tests.",
  ["include/xme/math/matrix.hpp: constructors", "include/xme/math/matrices/matrix4x4.hpp: constructors"])
p("SPSCQueue calls are exact when their loads are up to date",
  "read_available then returns exactly the number of stored elements and write_available exactly how many more fit; emplace returns false if the queue is full and otherwise stores its value behind the others and returns true; consume gives its callback the oldest element. Calls throw only if the element's constructor or the callback does.",
  "all capacities that are powers of two, all reachable states, both threads, wherever the other thread is in its own call", "A counter that is too small in some states loses throughput but fails no test that only checks for lost or duplicated elements.",
  ["private/container/spsc_queue_base.hpp: emplace, consume, read_available, write_available"])
p("Determinants in floating point are close to the exact ones",
  "If the determinant of a 2x2, 3x3 or 4x4 matrix is a number, then its error is at most 2, 5 or 9 units of roundoff of the sum of the absolute values of its products, up to a term for underflow. Entries of bounded size cannot overflow: in float, entries of size at most B (up to 2^62, 2^41, 2^30) give a number within 2^-21 B^2, 2^-19 B^3, 2^-16 B^4 of the exact determinant.",
  "all matrices of finite floats, any precision", "The error depends on all entries and comes from cancellation; tests use small integers, for which all operations are exact.",
  ["include/xme/math/matrices/functions.hpp: determinant"])
p("The sign of a determinant in floating point is right",
  "The computed determinant is positive, negative or zero if the exact one is.",
  "all matrices of finite floats", "Wrong signs appear only for nearly singular matrices.",
  ["include/xme/math/matrices/functions.hpp: determinant"])
p("Quaternion arithmetic in floating point",
  "Each component of a product of quaternions is within 4 units of roundoff of the sum of the absolute values of its four terms; sums and differences are the nearest numbers; products of bounded components do not overflow; in float the squared norm of a product of nearly unit quaternions differs from the product of the squared norms by at most 2^-17.",
  "all quaternions of finite floats, any precision", "Errors depend on all eight components; tests use integers.",
  ["include/xme/math/quaternion.hpp: operator*, operator+, operator-"])
p("Transformations and reflections in floating point",
  "translate and rotate give entries within 4 and 7 units of roundoff of the terms of the exact product with the translation and with Rodrigues' matrix, given the error of sine and cosine; scale gives the nearest numbers; reflect is within the bound of its dot product and three roundings. Columns that should not change do not.",
  "all matrices, vectors, axes and angles of finite floats, any precision", "Errors depend on all entries; tests use right angles and unit axes.",
  ["include/xme/math/matrices/transformation.hpp: translate, scale, rotate", "include/xme/math/vectors/geometry.hpp: reflect"])

p("Projection matrices in floating point are close to the exact ones",
  "Every entry of a projection by field of view, of a frustum or of an orthographic box is a number and has a small relative error: in float at most 2^-21, given a tangent that is right up to 2^-23, and at most a little more than 2^-22 for frusta and boxes.",
  "all finite sizes, angles and distances whose sums and differences are representable sizes; in float from 2^-41 to 2^41", "Overflow happens only for far planes near the largest number, which is a usual way to ask for no far plane; relative errors depend on all arguments.",
  ["include/xme/math/matrices/perspective.hpp: perspective_rh, perspective_lh, ortho_rh, ortho_lh"])

p("Which types are tuple-like",
  "CTupleLike holds for every Tuple, Pair, std::tuple, std::pair and std::array and for no struct or other class; CPairLike holds for those of them with two elements; asking never fails to compile.",
  "all element types that members can have, with all qualifiers and references", "Tests ask for a few tuples of int and string; the answer for volatile elements, or with explicit object parameters, is a property of the type and not of a run.",
  ["include/xme/container/concepts.hpp: CTupleLike, CPairLike"])
p("Assignment between tuple-like objects takes as many elements as there are",
  "A Tuple can be assigned from a tuple-like object, and a Pair from a pair-like one, exactly if the sizes are the same and each element can be assigned; otherwise the assignment is rejected. Element i is assigned from element i; lvalues are copied and rvalues moved.",
  "all element types, sources, qualifiers and value categories", "Whether an assignment compiles cannot be seen by a test that compiles; that a longer source loses elements is not noticed by tests with equal sizes.",
  ["include/xme/container/tuple.hpp: operator=", "include/xme/container/pair.hpp: operator="])
p("A conversion of a Tuple that is offered compiles and loses nothing",
  "If the constraints of the conversion operator are met, then its body compiles and initialises member i of the result from element i. What it converts to has at least as many members as the Tuple has elements.",
  "all element types, all aggregates and standard tuples to convert to", "The constraint and the body are two separate expressions; tests try only types for which both compile.",
  ["include/xme/container/tuple.hpp: operator U"])

p("Common references of Tuples are element by element, and Tuples without one are told so",
  "The common reference of two Tuples is a reference to the Tuple if both are references to the same one, and otherwise the Tuple of the common references of the elements as they are seen through the qualifiers of the two, in either order. If the sizes differ or some elements have none, there is none, and concepts that ask for it are not satisfied.",
  "all element types, qualifiers and kinds of reference, for any common references of elements", "The tests have one static_assert with a common reference; that a question does not compile cannot be tested by a program that compiles.",
  ["include/xme/container/tuple.hpp: std::basic_common_reference"])
p("Tuples convert to their common type",
  "The common type of two Tuples of one size is the Tuple of the common types of the elements, and both convert to it; Tuples whose elements have none have none.",
  "all element types, for any common types and conversions of elements", "Braces reject narrowing conversions, so the answer depends on the types of the elements; the tests never ask for a common type.",
  ["include/xme/container/tuple.hpp: std::common_type", "include/xme/container/tuple.hpp: operator U"])

p("A Delegate can be made from every callable that fits, and copied",
  "A Delegate<R(Args...)> can be constructed from and assigned every callable, named or not, that can be called with Args... and whose result converts to R or is thrown away (R is void); from other types construction is rejected. A Delegate that says it can be copied can be copied.",
  "all types of callables, with all qualifiers and value categories", "Which programs compile is not observable by a test that compiles; the repository has no tests of Delegate.",
  ["include/xme/core/functional/delegate.hpp: Delegate(Fn&&)", "include/xme/core/functional/delegate.hpp: Delegate(const Delegate&)", "include/xme/core/functional/delegate.hpp: FunctorManager"])
p("The deduced signature of a Delegate is that of what it is made from",
  "The deduction guides give a function, and every functor whose call operator is not overloaded and can be called on an lvalue, the signature of that function or operator.",
  "all functions and call operators, with all qualifiers", "There are 24 kinds of call operators and any number of signatures; a missing specialisation is only seen where it is needed.",
  ["include/xme/core/functional/delegate.hpp: deduction guides", "include/xme/core/functional/delegate.hpp: FunctionGuideHelper"])

p("Vectors are made from arguments that supply their components",
  "A vector can be made from one scalar, which fills it, and from scalars and vectors that together have as many components as it has; component i is then the i-th one supplied, converted once. Nothing else makes a vector, and copies are exact.",
  "all sizes, element types and lists of arguments", "There are 14 constructors, 7 of them for Vector4 alone, and the one that is taken depends on all the types; tests use one element type and a few of the constructors.",
  ["include/xme/math/vector.hpp: Vector", "include/xme/math/vectors/vector2.hpp: Vector", "include/xme/math/vectors/vector3.hpp: Vector", "include/xme/math/vectors/vector4.hpp: Vector"])
p("What the constructors of vectors accept compiles",
  "If overload resolution finds a constructor for scalars then its body compiles; concepts such as std::constructible_from tell the truth.",
  "all sizes, element types and lists of arguments", "A constructor template without constraints claims to accept everything; a program that shows this does not compile.",
  ["include/xme/math/vector.hpp: Vector", "include/xme/math/vectors/vector2.hpp: Vector", "include/xme/math/vectors/vector3.hpp: Vector", "include/xme/math/vectors/vector4.hpp: Vector"])
p("Vectors are converted only explicitly",
  "Where a vector is wanted, only a vector of that size and element type is taken without a cast.",
  "all sizes and all arguments", "Implicit conversions are silent; tests cannot show that something does not compile.",
  ["include/xme/math/vector.hpp: Vector", "include/xme/math/vectors/vector2.hpp: Vector", "include/xme/math/vectors/vector3.hpp: Vector", "include/xme/math/vectors/vector4.hpp: Vector"])
p("Deduced types of vectors and quaternions hold all arguments",
  "Vector(x1, ..., xn) has n components of the lowest arithmetic type that all arguments convert to (or their own type if they have the same), whatever their order, and it compiles and holds the arguments in order. Vector(v) is a copy. Quaternions are deduced the same way, with float for integers.",
  "all numbers of arguments of all arithmetic types", "There are 19 arithmetic types and any number of arguments; the tests write the types out.",
  ["include/xme/math/vector.hpp: deduction guides", "include/xme/math/quaternion.hpp: deduction guide"])
p("Deduced matrix types can be constructed",
  "If the type of Matrix(columns...) can be deduced then the matrix has these columns, in the number and height given, and the common type of their elements, and it compiles.",
  "all numbers and types of columns", "Types are deduced before constructors are looked at; the tests write the types out.",
  ["include/xme/math/matrix.hpp: deduction guide", "include/xme/math/matrix.hpp: Matrix", "include/xme/math/matrices/matrix4x4.hpp: Matrix"])

p("Deduced views show the elements of their argument, and only of arguments that live on",
  "ArrayView(x) has the elements of x as they are seen through x, const or not, and its size where that is part of the type, and it compiles if the elements outlive the expression; for temporaries that own their elements it does not compile. ArrayView(i, e) has the elements that i refers to.",
  "all arrays, std::arrays, contiguous ranges and views, const or not, lvalues and rvalues; all contiguous iterators", "Which of five guides is taken depends on value category and constness; that a view of a temporary does not compile cannot be shown by a test that compiles.",
  ["include/xme/container/array_view.hpp: deduction guides", "include/xme/container/array_view.hpp: ArrayView"])
p("Deduced tuples and pairs hold each argument",
  "Tuple(x...) and Pair(x, y) have one element for each argument, in order: a reference for std::ref, a pointer for arrays and functions, and otherwise a copy that is not const. Tuple(t) for a Tuple is a copy of it.",
  "all numbers and types of arguments", "Types of arguments are not bounded; the tests write the element types out.",
  ["include/xme/container/tuple.hpp: deduction guide", "include/xme/container/pair.hpp: deduction guide"])
p("A determinant is zero exactly for singular matrices",
  "For real numbers the determinant of a 2x2, 3x3 or 4x4 matrix is zero if and only if the matrix times some nonzero vector is zero, and not zero if and only if some matrix times it is the identity on both sides. The 3x3 determinant is dot(a, cross(b, c)) of the columns.",
  "all real matrices of the three sizes", "Singular matrices are rare among samples; that no nonzero vector is sent to zero is a statement about all vectors.",
  ["include/xme/math/matrices/functions.hpp: determinant", "include/xme/math/matrix.hpp: operator*", "include/xme/math/matrices/matrix4x4.hpp: operator*", "include/xme/math/vectors/geometry.hpp: cross"])
p("The GLSL names mean the GLSL types",
  "A name s is declared in glsl_mapping.hpp exactly if it is a vector or matrix type of GLSL, and then it has that type: the number of components, columns and rows, and the type of the components. Products, transposes and outer products of these types have the types that GLSL gives them.",
  "all names; all sizes", "The tests use a few of the 39 names; a name that should not exist and swapped columns and rows of one name go unnoticed.",
  ["include/xme/math/glsl_mapping.hpp", "include/xme/math/matrix.hpp: operator*", "include/xme/math/matrices/functions.hpp: transpose", "include/xme/math/matrices/functions.hpp: outer_product"])
p("The arithmetic operators compile for all types of linear algebra and reject others",
  "The operators + - * / of vectors, matrices and quaternions compile for numbers, for vectors and matrices of fitting size and for quaternions, whatever the element types (they are templates in the element type of the right operand), and have the expected type. A concept can find out which ones do.",
  "all operators, sizes and arithmetic element types", "A program that shows that an operator does not compile does not compile; the tests use float only.",
  ["include/xme/math/vector.hpp: VEC_OP", "include/xme/math/matrix.hpp: MAT_OP1, MAT_OP2, operator*", "include/xme/math/matrices/matrix4x4.hpp: MAT_OP1, MAT_OP2, operator*", "include/xme/math/quaternion.hpp: operator+, operator-, operator*", "include/xme/math/vectors/geometry.hpp: dot"])

p("Each call relocates only the elements it has to",
  "A call that returns relocates exactly: every element if the storage of the array is replaced (by reserve, resize, push_back, emplace_back and insert beyond the capacity; resize to less keeps and relocates the first ones), otherwise the elements behind the place of an insertion or erasure, and none in push_back, emplace_back and all other calls. Emptying an array of n elements from the front relocates n(n-1)/2 elements, from the back none.",
  "all states of the arrays, all calls, positions and values, trivial and other element types", "Counts of moves are not observable for trivial types; the tests compare contents only.",
  ["include/xme/container/array.hpp: insert", "include/xme/container/array.hpp: erase", "include/xme/container/array.hpp: push_back", "include/xme/container/array.hpp: grow_storage", "include/xme/container/array.hpp: shrink_storage", "include/xme/container/array.hpp: realloc_insert"])

p("Only objects of the same type can be compared",
  "x == y and x <=> y for vectors, matrices and quaternions compile if both have the same type, and then compare all components; they do not compile for operands of different types, and a concept can find that out. x == y says the same as y == x.",
  "all sizes, arithmetic element types and values of both operands, numbers and other types", "A program that shows that a comparison does not compile does not compile; implicit conversions of one operand go unnoticed when the tests compare equal types.",
  ["include/xme/math/vector.hpp: operator==", "include/xme/math/vectors/vector4.hpp: operator==", "include/xme/math/matrix.hpp: operator==, Matrix", "include/xme/math/matrices/matrix4x4.hpp: operator==, Matrix", "include/xme/math/quaternion.hpp: operator=="])

p("Containers have the accessors that their iterators allow",
  "operator[], empty, data, size, front and back of a class derived from IContainer compile exactly if its iterators are strong enough, and give the element, address or number that the sequence of elements has. A const object offers nothing that another one does not offer as well. Elements can be changed through them exactly if the object is not const, and neither are the elements; never through those of a Heap.",
  "all classes derived from IContainer, with any iterators, const or not; all lengths and indices", "That an accessor does not compile cannot be tested by a program; the overload for const objects is chosen silently.",
  ["include/xme/container/icontainer.hpp: operator[]", "include/xme/container/icontainer.hpp: empty", "include/xme/container/icontainer.hpp: size", "include/xme/container/icontainer.hpp: back", "include/xme/container/heap.hpp: begin"])
p("A const view gives no write access",
  "The elements of a const ArrayView cannot be changed through its accessors, nor through views that are derived from it.",
  "all views, const or not, and all ways to derive a view from one", "A test that writes through a subview of a const view would be seen as a use of the view, not as a defect.",
  ["include/xme/container/array_view.hpp: begin", "include/xme/container/array_view.hpp: subview", "include/xme/container/array_view.hpp: first", "include/xme/container/array_view.hpp: as_writable_bytes"])

p("Bounds of the floating-point functions hold with fused operations too",
  "If the compiler fuses any of the multiplications with additions (fused multiply-add, as allowed with -march=native), the results of dot, cross, matrix products, determinants and quaternion products stay within the same error bounds, and overflow no sooner, than without.",
  "all binary formats, values, sizes and choices of fused operations", "What a compiler fuses depends on its version, the flags and the processor; the tests are compiled with -march=native and see one choice.",
  ["include/xme/math/vectors/geometry.hpp: dot", "include/xme/math/vectors/geometry.hpp: cross", "include/xme/math/matrix.hpp: operator*", "include/xme/math/matrices/functions.hpp: determinant", "include/xme/math/quaternion.hpp: operator*", "tests/CMakeLists.txt"])
p("Exact identities of the floating-point functions hold with fused operations too",
  "With any choice of fused operations: dot(v, w) and dot(w, v) have the same possible results, dot(v, v) is not negative, cross(w, v) is the opposite of cross(v, w), lerp gives its arguments at 0 and 1; cross(v, v) is zero, and the determinant of a 2x2 matrix has the right sign and is zero for a singular matrix.",
  "all binary formats, values, sizes and choices of fused operations", "What a compiler fuses depends on its version, the flags and the processor; an identity that fails for few values goes unnoticed.",
  ["include/xme/math/vectors/geometry.hpp: dot", "include/xme/math/vectors/geometry.hpp: cross", "include/xme/math/vectors/functions.hpp: lerp", "include/xme/math/matrices/functions.hpp: determinant", "tests/CMakeLists.txt"])

p("constexpr functions can be evaluated by the compiler",
  "A call of find or reverse, and a program with local Arrays or LinkedLists, that is defined at run time and whose objects are destroyed at the end, is a constant expression, with the result that it has at run time.",
  "all element types, instruction sets, arrays, ranges and sequences of calls", "A test runs a function; that a call is not a constant expression is an error of the compiler, which no test of this repository asks for.",
  ["include/xme/core/algorithm/find.hpp: find", "include/xme/core/algorithm/reverse.hpp: reverse", "include/xme/container/array.hpp: push_back, insert, reserve, erase", "include/xme/container/linked_list.hpp: create_node", "include/xme/container/aligned_data.hpp: data"])

p("Lengths, distances and unit vectors with fused operations",
  "If the compiler fuses any multiplications with additions, length, distance and normalize stay within the same error bounds as without; the possible lengths of v and -v are the same, so are the possible distances of v and w and of w and v, and v.length() and length(v) have the same possible values.",
  "all binary formats, values, sizes and choices of fused operations", "What a compiler fuses depends on its version, the flags and the processor; the tests are compiled with -march=native and see one choice.",
  ["include/xme/math/vectors/geometry.hpp: length", "include/xme/math/vectors/geometry.hpp: distance", "include/xme/math/vectors/geometry.hpp: normalize", "include/xme/math/vectors/vector2.hpp: length", "include/xme/math/vector.hpp: length, normalize", "tests/CMakeLists.txt"])

p("Destroying objects reaches every element, through the allocator",
  "destroy_a, destroy_at_a and destroy_n_a end the life of every element of their objects exactly once, in order, also if the objects are arrays; an allocator with a destroy of its own is called for each element; destroy_n_a(first, n) does what destroy_a(first, first + n) does.",
  "all types (arrays of arrays included), allocators, addresses and numbers of objects", "Every combination of type and allocator is another instance of the templates; the tests use numbers and std::allocator.",
  ["include/xme/ranges/destroy.hpp: destroy_a", "include/xme/ranges/destroy.hpp: destroy_at_a", "include/xme/ranges/destroy.hpp: destroy_n_a"])

p("A queue used by one thread is a bounded sequence, also inside consume",
  "If one thread both pushes to and removes from an SPSCQueue, the queue behaves as a sequence of at most capacity - 1 elements: push appends and tells whether there was room, consume shows the oldest element and removes it after the callback, pop removes it, clear empties the queue, and the counts are right, also if the callback of consume uses the queue; every accepted element is destroyed once or still there, and removing from an empty queue is noticed.",
  "all capacities that are powers of two, element types, sequences of calls and callbacks", "The tests call consume with callbacks that do not use the queue, and few sequences of calls on one capacity.",
  ["private/container/spsc_queue_base.hpp: clear", "private/container/spsc_queue_base.hpp: emplace", "private/container/spsc_queue_base.hpp: pop", "private/container/spsc_queue_base.hpp: consume", "include/xme/container/spsc_queue.hpp: consume"])

p("A functor may use delegates while it runs, its own included",
  "A functor held by a Delegate may call delegates (itself recursively too), create, replace, swap and destroy them, and replace or destroy its own delegate as long as it does not use its members afterwards: the calls give the expected results and every functor is destroyed exactly once. Whether a functor fits into the delegate makes no difference.",
  "all functor types, sizes, bodies and nestings of calls", "The bodies of functors are arbitrary programs; the tests call functors that do not know of delegates.",
  ["include/xme/core/functional/delegate.hpp: operator()", "include/xme/core/functional/delegate.hpp: operator=", "include/xme/core/functional/delegate.hpp: Delegate(Delegate&&)", "include/xme/core/functional/delegate.hpp: invoke", "include/xme/core/functional/delegate.hpp: swap"])

p("A Delegate passes its arguments on to the functor",
  "A call of a Delegate<R(Args...)> gives the functor the values of the arguments. What both the signature and the functor take by reference is the very object of the caller; everything else is a fresh object, no two alike. An lvalue passed by value is copied once by the delegate, an rvalue never; only rvalues that are taken by value are moved from. A call whose arguments do not fit the signature, or a functor that does not take its parameters, does not compile.",
  "all signatures of T, T&, const T& and T&&, all functor parameters and all lvalue, xvalue and prvalue arguments", "The arguments pass through two functions of the delegate; the tests use few signatures and do not count copies.",
  ["include/xme/core/functional/delegate.hpp: operator()", "include/xme/core/functional/delegate.hpp: invoke", "include/xme/core/functional/delegate.hpp: m_callable"])

p("bind_front and bind_back keep and pass their arguments without needless copies",
  "Binding makes a new object for each argument, copying lvalues once and moving rvalues once. A call of the bound callable gives the callable the bound objects as lvalues (const ones if it is const) or as rvalues if it is called as a non-const rvalue, and passes the call arguments as what they are: references refer to these objects, value parameters are copied or moved exactly once. A call as an lvalue leaves the bound arguments as they are. Callables whose parameters do not fit do not compile.",
  "all lists of bound and call arguments, all parameter lists of the callable, all value categories of the bound callable", "The arguments pass through several forwarding functions; the tests bind a few ints and do not count copies.",
  ["include/xme/core/functional/bind.hpp: BindFront", "include/xme/core/functional/bind.hpp: BindBack", "include/xme/core/functional/bind.hpp: bind_front", "include/xme/core/functional/bind.hpp: bind_back", "include/xme/container/tuple.hpp: get"])

p("Sizes of an Array and indices of a Heap never wrap around",
  "With std::allocator every operation of Array computes the sizes it needs exactly, although size_t wraps around: it requests memory for just as many elements as it needs, a request that is larger than any array can be throws and leaves the array alone, and no pointer arithmetic or pointer difference overflows. The indices of parents and children in a Heap are exact, too.",
  "all widths of size_t, all element sizes, all sizes, capacities and arguments, all answers of the memory system", "Sizes near the limits cannot be allocated in a test.",
  ["include/xme/container/array.hpp: grow_storage", "include/xme/container/array.hpp: shrink_storage", "include/xme/container/array.hpp: realloc_insert", "include/xme/container/array.hpp: insert", "include/xme/container/array.hpp: push_back", "include/xme/container/array.hpp: emplace_back", "include/xme/container/array.hpp: reserve", "include/xme/container/array.hpp: resize", "include/xme/container/array.hpp: capacity", "include/xme/container/heap.hpp: parent", "include/xme/container/heap.hpp: left_child", "include/xme/container/heap.hpp: right_child"])

p("Tuples and pairs are made, applied and assigned without needless copies",
  "make_tuple, make_pair, tuple_cat and the conversion to an aggregate make each element with one copy or move of its source, apply hands elements to reference parameters without any and to value parameters with one, assignment costs one per element, swap three moves for each pair, and forward_as_tuple costs none. Apart from swap, which exchanges the values, only elements of rvalues are moved from; all other objects keep their values.",
  "all element values, all argument categories, all parameter kinds, all numbers of elements", "Copies and moves are visible only with instrumented elements, and the combinations of categories are many.",
  ["include/xme/container/tuple.hpp: make_tuple", "include/xme/container/tuple.hpp: forward_as_tuple", "include/xme/container/tuple.hpp: apply", "include/xme/container/tuple.hpp: operator U", "include/xme/container/tuple.hpp: tuple_cat", "include/xme/container/tuple.hpp: assign_tuple_index", "include/xme/container/tuple.hpp: swap", "include/xme/container/pair.hpp: make_pair", "include/xme/container/pair.hpp: operator=", "include/xme/container/pair.hpp: swap"])

p("Adding an element costs one copy or move, and a failed push none",
  "Every function of LinkedList, Array, Heap and SPSCQueue that adds one element makes it with one copy of an lvalue argument or one move of an rvalue argument, whatever the number of functions in between, and never moves from an lvalue. A push to a full queue leaves its argument alone, also an rvalue, so that it can be tried again. consume hands the element out as an rvalue without a copy.",
  "all argument categories, all values, all of these functions, full and not full queues and arrays", "Copies and moves are visible only with instrumented elements; each function and category needs its own test.",
  ["include/xme/container/linked_list.hpp: push_front", "include/xme/container/linked_list.hpp: emplace_front", "include/xme/container/linked_list.hpp: insert_after", "include/xme/container/linked_list.hpp: emplace_after", "include/xme/container/linked_list.hpp: create_node", "include/xme/container/array.hpp: push_back", "include/xme/container/array.hpp: emplace_back", "include/xme/container/array.hpp: insert", "include/xme/container/array.hpp: realloc_insert", "include/xme/container/heap.hpp: push", "include/xme/container/heap.hpp: emplace", "include/xme/container/spsc_queue.hpp: push", "include/xme/container/spsc_queue.hpp: emplace", "private/container/spsc_queue_base.hpp: consume"])

out = os.path.join(os.path.dirname(os.path.abspath(__file__)), "..", "properties.jsonl")
with open(out, "w") as f:
    for x in P: f.write(json.dumps(x) + "\n")
print(len(P)); [print(x["id"], x["title"]) for x in P]
