(** Model of where exceptions go: the exception specifications of tuple.hpp,
    pair.hpp, bind.hpp, scoped_delegate.hpp, delegate.hpp, aligned_data.hpp,
    heap.hpp, find.hpp and reverse.hpp.

    A function is its exception specification together with the operations of
    the user's types that it performs, in order. An exception that reaches a
    function declared noexcept calls std::terminate.

    Simplifications, valid for every definition below:
    - values are dropped; a branch that depends on them is [Or];
    - destructors, and operations of pointers, integers and arrays of bytes, do
      not throw and are dropped;
    - an operation that is not declared noexcept may throw whenever it runs, one
      that is declared noexcept never does (a user's noexcept function that
      fails terminates inside the user's code). *)
From stdpp Require Import list.

(** Value category and constness of an argument. *)
Inductive cat := LV | CLV | RV | CRV.

(** Operations of the user's types; types and callables are numbered. *)
Inductive op :=
| Copy (t : nat) | Move (t : nat)            (* constructors T(const T&), T(T&&) *)
| Emplace (t : nat)                          (* a constructor from other arguments *)
| CopyAssign (t : nat) | MoveAssign (t : nat)
| Assign (t : nat)                           (* assignment from another type *)
| Swap (t : nat)                             (* std::ranges::swap of two T *)
| Equal (t : nat) | Order (t : nat)          (* == and <=> of two T *)
| Less (c : nat)                             (* a call of the comparator c *)
| Call (f : nat) (fc : cat) (bound : list cat) (* call of f, of category fc, with bound arguments of
                                                these categories and the arguments of the caller *)
| Iter (r : nat)                             (* begin/end/increment/dereference of the range r *)
| New.                                       (* operator new *)
Global Instance cat_eq_dec : EqDecision cat. Proof. solve_decision. Defined.
Global Instance op_eq_dec : EqDecision op. Proof. solve_decision. Defined.

Inductive stm :=
| Skip
| Do (o : op)
| Seq (a b : stm)
| Or (a b : stm)
| Loop (a : stm)            (* zero or more times *)
| Fn (ne : bool) (a : stm). (* a function with noexcept(ne) and this body *)

Inductive outcome := Ret | Exc | Term.

(** Which outcomes a statement can have, when [E o] says that [o] is declared
    noexcept. *)
Inductive runs (E : op → bool) : stm → outcome → Prop :=
| runs_skip : runs E Skip Ret
| runs_do o : runs E (Do o) Ret
| runs_throw o : E o = false → runs E (Do o) Exc
| runs_seq a b r : runs E a Ret → runs E b r → runs E (Seq a b) r
| runs_seq_stop a b r : r ≠ Ret → runs E a r → runs E (Seq a b) r
| runs_or_l a b r : runs E a r → runs E (Or a b) r
| runs_or_r a b r : runs E b r → runs E (Or a b) r
| runs_loop_end a : runs E (Loop a) Ret
| runs_loop a r : runs E a Ret → runs E (Loop a) r → runs E (Loop a) r
| runs_loop_stop a r : r ≠ Ret → runs E a r → runs E (Loop a) r
| runs_fn ne a r : r ≠ Exc → runs E a r → runs E (Fn ne a) r
| runs_fn_propagate a : runs E a Exc → runs E (Fn false a) Exc
| runs_fn_terminate a : runs E a Exc → runs E (Fn true a) Term.

(** The value of the C++ expression noexcept(f(...)). *)
Definition is_noexcept (s : stm) : bool := match s with Fn ne _ => ne | _ => false end.

Definition seqs : list stm → stm := foldr Seq Skip.

Section functions.
Context (E : op → bool).

(** std::is_nothrow_swappable_v<T> && ... *)
Definition nothrow_swap (ts : list nat) : bool := forallb (λ t, E (Swap t)) ts.

(** *** tuple.hpp *)

(** tuple.hpp:47-51 swap(Tuple&, index_sequence) *)
Definition tuple_swap_index (ts : list nat) : stm :=
  Fn (nothrow_swap ts) (seqs (map (λ t, Do (Swap t)) ts)).
(** tuple.hpp:37-39 Tuple::swap *)
Definition tuple_swap (ts : list nat) : stm := Fn (nothrow_swap ts) (tuple_swap_index ts).
(** tuple.hpp:72-76 swap(Tuple&, Tuple&) *)
Definition tuple_swap_free (ts : list nat) : stm := Fn (nothrow_swap ts) (tuple_swap ts).

(** The expression fun(get<0>(tup), ...): [ps] are the operations that
    initialize the parameters of the callable; get is noexcept. *)
Definition call_expr (f : nat) (fc : cat) (acs : list cat) (ps : list op) : stm :=
  Seq (seqs (map Do ps)) (Do (Call f fc acs)).
(** noexcept(e) of that expression. *)
Definition call_noexcept (f : nat) (fc : cat) (acs : list cat) (ps : list op) : bool :=
  forallb E ps && E (Call f fc acs).
(** tuple.hpp:79-83 detail::apply *)
Definition apply_index f fc acs ps : stm := Fn (call_noexcept f fc acs ps) (call_expr f fc acs ps).
(** tuple.hpp:86-94 apply *)
Definition apply f fc acs ps : stm := Fn (is_noexcept (apply_index f fc acs ps)) (apply_index f fc acs ps).

(** The constructor of T chosen for an argument of type T. *)
Definition from (t : nat) (c : cat) : op := match c with RV => Move t | _ => Copy t end.

(** tuple.hpp:101-105 make_tuple, for arguments of types [ts] and the given
    categories. Tuple is an aggregate whose first element is its base class, so
    Tuple<T...>(values...), which is_nothrow_constructible_v looks at, only
    exists for an empty list. *)
Definition make_tuple (args : list (nat * cat)) : stm :=
  Fn (match args with [] => true | _ => false end) (seqs (map (λ a, Do (from a.1 a.2)) args)).

(** tuple.hpp:33 operator==, with the implicit exception specification of the
    defaulted operators of TypeMap and TupleElement, tuple_base.hpp:37-60.
    Comparison stops at the first difference. *)
Definition element_eq (t : nat) : stm := Fn (E (Equal t)) (Do (Equal t)).
Definition all_eq (ts : list nat) : stm :=
  foldr (λ t rest, Seq (element_eq t) (Or Skip rest)) Skip ts.
Definition tuple_eq (ts : list nat) : stm :=
  Fn true (Fn (forallb (λ t, E (Equal t)) ts) (all_eq ts)).
(** tuple.hpp:35 operator<=> *)
Definition element_cmp (t : nat) : stm := Fn (E (Order t)) (Do (Order t)).
Definition all_cmp (ts : list nat) : stm :=
  foldr (λ t rest, Seq (element_cmp t) (Or Skip rest)) Skip ts.
Definition tuple_cmp (ts : list nat) : stm :=
  Fn true (Fn (forallb (λ t, E (Order t)) ts) (all_cmp ts)).

(** *** pair.hpp *)

(** pair.hpp:71-75 Pair::swap *)
Definition pair_swap (t u : nat) : stm :=
  Fn (E (Swap t) && E (Swap u)) (Seq (Do (Swap t)) (Do (Swap u))).
(** pair.hpp:104-107 swap(Pair&, Pair&) *)
Definition pair_swap_free (t u : nat) : stm := Fn (is_noexcept (pair_swap t u)) (pair_swap t u).
(** pair.hpp:11-17 Pair::operator=(P&&): [o1] and [o2] are the assignments that
    overload resolution chooses for first and second. *)
Definition pair_assign (t u : nat) (o1 o2 : op) : stm :=
  Fn (E (Swap t) && E (Swap u)) (Seq (Do o1) (Do o2)).
(** pair.hpp:109-115 make_pair; Pair<T, U>(t, u) is aggregate initialization of
    first and second (C++20). *)
Definition make_pair (a b : nat * cat) : stm :=
  Fn (E (from a.1 a.2) && E (from b.1 b.2)) (Seq (Do (from a.1 a.2)) (Do (from b.1 b.2))).
(** pair.hpp:66, 69 operator== and operator<=> *)
Definition pair_eq (t u : nat) : stm := Fn true (Seq (Do (Equal t)) (Or Skip (Do (Equal u)))).
Definition pair_cmp (t u : nat) : stm := Fn true (Seq (Do (Order t)) (Or Skip (Do (Order u)))).

(** *** bind.hpp *)

(** std::is_nothrow_constructible_v<X, X, category c> *)
Definition nothrow_construct (t : nat) (c : cat) : bool := E (from t c).
(** std::is_nothrow_constructible_v<BoundArg, Arg> where BoundArg is deduced
    from an argument of type X and category c, and Arg is X: a non-const lvalue
    reference does not bind to an rvalue, a const one does, and the other two
    move-construct. *)
Definition nothrow_construct_swapped (t : nat) (c : cat) : bool :=
  match c with LV => false | CLV => true | RV | CRV => E (Move t) end.
(** bind.hpp:19-23 BindFront(Fn&&, BoundArgs&&...): [f] the callable, [args]
    the bound arguments, both of decayed types. *)
Definition bind_front_ctor (f : nat * cat) (args : list (nat * cat)) : stm :=
  Fn (nothrow_construct f.1 f.2 && forallb (λ a, nothrow_construct_swapped a.1 a.2) args)
     (Seq (Do (from f.1 f.2)) (seqs (map (λ a, Do (from a.1 a.2)) args))).
(** bind.hpp:81-85 BindBack(Fn&&, BoundArgs&&...) *)
Definition bind_back_ctor (f : nat * cat) (args : list (nat * cat)) : stm :=
  Fn (nothrow_construct f.1 f.2 && forallb (λ a, nothrow_construct a.1 a.2) args)
     (Seq (Do (from f.1 f.2)) (seqs (map (λ a, Do (from a.1 a.2)) args))).
(** bind.hpp:15, 17, 25, 27 (77, 79, 87, 89 BindBack): copy and move, noexcept
    and defaulted: memberwise over the callable and the bound arguments. *)
Definition bind_copy (f : nat) (ts : list nat) : stm :=
  Fn true (Seq (Do (Copy f)) (seqs (map (λ t, Do (Copy t)) ts))).
Definition bind_move (f : nat) (ts : list nat) : stm :=
  Fn true (Seq (Do (Move f)) (seqs (map (λ t, Do (Move t)) ts))).
Definition bind_copy_assign (f : nat) (ts : list nat) : stm :=
  Fn true (Seq (Do (CopyAssign f)) (seqs (map (λ t, Do (CopyAssign t)) ts))).
Definition bind_move_assign (f : nat) (ts : list nat) : stm :=
  Fn true (Seq (Do (MoveAssign f)) (seqs (map (λ t, Do (MoveAssign t)) ts))).
(** Category of get<I>(std::forward<T>(self).m_bound_args), tuple.hpp:57-70:
    there is no overload for const rvalues. *)
Definition get_cat (c : cat) : cat := match c with CRV => CLV | _ => c end.
(** bind.hpp:54-64 (116-126) call, for a wrapper of category [c] with [n] bound
    arguments; std::invoke has the exception specification of the call. *)
Definition bind_call_index (f : nat) (c : cat) (n : nat) (ps : list op) : stm :=
  Fn (call_noexcept f c (replicate n (get_cat c)) ps) (call_expr f c (replicate n (get_cat c)) ps).
(** bind.hpp:30-52 (92-114) operator(): is_nothrow_invocable_v over the bound
    types with the category of the wrapper. [ps] and [ps'] initialize the
    parameters in the call that is made and in the one that the specification
    names; they agree unless the categories differ. *)
Definition bind_call (f : nat) (c : cat) (n : nat) (ps ps' : list op) : stm :=
  Fn (call_noexcept f c (replicate n c) ps') (bind_call_index f c n ps).

(** *** scoped_delegate.hpp *)

(** scoped_delegate.hpp:11 ScopedDelegate(F&) *)
Definition scoped_ctor_copy (f : nat) : stm := Fn true (Do (Copy f)).
(** scoped_delegate.hpp:13 ScopedDelegate(F&&) *)
Definition scoped_ctor_move (f : nat) : stm := Fn true (Do (Move f)).
(** scoped_delegate.hpp:15 ~ScopedDelegate *)
Definition scoped_dtor (f : nat) : stm := Fn true (Do (Call f LV [])).

(** *** delegate.hpp *)

(** delegate.hpp:73-81 create_functor *)
Definition create_functor (local : bool) (f : nat) : stm :=
  Fn false (if local then Do (Move f) else Seq (Do New) (Do (Move f))).
(** delegate.hpp:135-143 Delegate(Fn&&) of an rvalue functor that is not null *)
Definition delegate_ctor (local : bool) (f : nat) : stm := Fn false (create_functor local f).
(** delegate.hpp:171-175 operator=(Fn&&); swap and the destructor do not throw *)
Definition delegate_assign (local : bool) (f : nat) : stm :=
  Fn true (Seq (delegate_ctor local f) (Seq (Fn true Skip) (Fn true Skip))).

(** *** aligned_data.hpp *)

(** aligned_data.hpp:29-32 AlignedData(Args&&...) *)
Definition aligned_ctor (t : nat) : stm := Fn true (Do (Emplace t)).

(** *** heap.hpp, for a heap of [n] elements of type [t] with comparator [c] *)

(** heap.hpp:103-112 heapfy_up: the parent of [index]. *)
Fixpoint heapfy_up_loop (fuel t c index : nat) : stm :=
  match fuel with
  | 0 => Skip
  | S k => if Nat.eqb index 0 then Skip
           else Seq (Do (Less c)) (Or Skip (Seq (Do (Swap t)) (heapfy_up_loop k t c ((index - 1) / 2))))
  end.
Definition heapfy_up (t c index : nat) : stm := Fn true (heapfy_up_loop (S index) t c index).
(** heap.hpp:114-127 heapfy_down *)
Fixpoint heapfy_down (fuel t c n index : nat) : stm :=
  match fuel with
  | 0 => Skip
  | S k =>
      let l := index * 2 + 1 in
      let r := index * 2 + 2 in
      Fn true
        (Seq (if Nat.ltb l n then Do (Less c) else Skip)
        (Seq (if Nat.ltb r n then Do (Less c) else Skip)
             (Or Skip
             (Or (if Nat.ltb l n then Seq (Do (Swap t)) (heapfy_down k t c n l) else Skip)
                 (if Nat.ltb r n then Seq (Do (Swap t)) (heapfy_down k t c n r) else Skip)))))
  end.
(** heap.hpp:62-67 pop; Array::pop_back performs no operation that throws. *)
Definition heap_pop (t c n : nat) : stm :=
  Fn true (Seq (Do (Swap t)) (heapfy_down n t c (n - 1) 0)).
(** heap.hpp:72-76 push; [grow]: the storage is full. array.hpp:253-261
    emplace_back, 285-295 grow_storage: allocation, relocation of the elements
    by move assignment, then construction of the new one. *)
Definition heap_push (t c n : nat) (grow : bool) : stm :=
  Fn false
    (Seq (if grow then Seq (Do New) (seqs (replicate n (Do (MoveAssign t)))) else Skip)
    (Seq (Do (Emplace t)) (heapfy_up t c n))).

(** *** find.hpp, reverse.hpp, on a range [r] of type-[t] elements *)

(** find.hpp:69-98 find(I, S, value) where it is not vectorized. *)
Definition find_iter (t r : nat) : stm :=
  Fn false (Seq (Loop (Seq (Do (Iter r)) (Do (Equal t)))) (Do (Iter r))).
(** find.hpp:100-103 find(R&&, value) *)
Definition find_range (t r : nat) : stm := Fn true (Seq (Do (Iter r)) (find_iter t r)).
(** reverse.hpp:47-71 reverse(I, S) where it is not vectorized. *)
Definition reverse_iter (t r : nat) : stm :=
  Fn true (Seq (Loop (Seq (Do (Iter r)) (Do (Swap t)))) (Do (Iter r))).
(** reverse.hpp:72-75 reverse(R&&) *)
Definition reverse_range (t r : nat) : stm := Fn true (Seq (Do (Iter r)) (reverse_iter t r)).

End functions.
