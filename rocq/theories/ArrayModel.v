(** Model of xme::Array (include/xme/container/array.hpp), of the helpers in
    include/xme/ranges/{destroy,uninitialized}.hpp and of the accessors in
    include/xme/container/icontainer.hpp.

    Simplifications, valid for every definition below:
    - the allocator is stateless (std::allocator) and [m_allocator] is dropped;
    - element moves and assignments do not throw; allocation and construction
      may (decided by [oracle]);
    - sizes are naturals (they are bounded by actual allocations). *)
From stdpp Require Import list.
From Verif Require Import Base.
Local Open Scope mon_scope.

Section model.
Context {V : Type}.

(** A cell of element storage. [Moved]: an object that is alive but whose value
    was moved away (only for non-trivial element types). *)
Inductive cell := Raw | Live (v : V) | Moved.
Inductive ptr := Null | Ptr (b o : nat).

(** array.hpp:334-351 ArrayData. *)
Record arr := mkArr { a_begin : ptr; a_end : ptr; a_stor : ptr }.
Definition null_arr := mkArr Null Null Null.

Record st := mkSt {
  heap   : list (option (list cell));  (* block id -> cells; None once freed *)
  objs   : list (option arr);          (* Array objects; None once destroyed *)
  oracle : list bool;                  (* next throwing points; [] = never throws *)
  moved  : nat;                        (* ghost: element relocations done so far *)
  leaked : nat                         (* ghost: objects dropped without destructor *)
}.
Definition set_heap h s := mkSt h (objs s) (oracle s) (moved s) (leaked s).
Definition set_objs o s := mkSt (heap s) o (oracle s) (moved s) (leaked s).
Definition set_oracle o s := mkSt (heap s) (objs s) o (moved s) (leaked s).
Definition add_moved n s := mkSt (heap s) (objs s) (oracle s) (n + moved s) (leaked s).
Definition add_leaked n s := mkSt (heap s) (objs s) (oracle s) (moved s) (n + leaked s).

Definition MA := M st.

(** Is T trivially copyable (an implicit-lifetime type)? *)
Context (triv : bool).

(** Arguments of element constructors/assignments: [AVal] some value convertible
    to T (the conversion may throw), [AObj] a T object outside every array,
    [ARef] a reference to an element in the modelled memory. Copying a T throws
    only for non-trivial T. *)
Inductive arg := AVal (v : V) | AObj (v : V) | ARef (p : ptr).

Definition tick : MA unit := fun s =>
  match oracle s with
  | [] => Ok tt s
  | true :: o => Throw (set_oracle o s)
  | false :: o => Ok tt (set_oracle o s)
  end.

Definition cell_alive (c : cell) : bool := match c with Raw => false | _ => true end.
Definition live_count (cs : list cell) : nat := length (filter (λ c, Is_true (cell_alive c)) cs).

(** std::allocator::allocate *)
Definition alloc (n : nat) : MA ptr :=
  tick ;;;
  b <- gets (λ s, length (heap s)) ;;
  modify (λ s, set_heap (heap s ++ [Some (replicate n Raw)]) s) ;;;
  ret (Ptr b 0).

(** std::allocator::deallocate: same pointer and same count. *)
Definition dealloc (p : ptr) (n : nat) : MA unit := fun s =>
  match p with
  | Ptr b 0 =>
      match heap s !! b with
      | Some (Some cs) =>
          if Nat.eqb (length cs) n then
            Ok tt (add_leaked (if triv then 0 else live_count cs)
                     (set_heap (<[b := None]> (heap s)) s))
          else UB BadDealloc
      | _ => UB BadDealloc
      end
  | _ => UB BadDealloc
  end.

Definition get_cell (p : ptr) : MA cell := fun s =>
  match p with
  | Null => UB NullDeref
  | Ptr b o =>
      match heap s !! b with
      | Some (Some cs) => match cs !! o with
                          | Some c => Ok c s
                          | None => UB OutOfBounds
                          end
      | _ => UB Dangling
      end
  end.

Definition set_cell (p : ptr) (c : cell) : MA unit := fun s =>
  match p with
  | Null => UB NullDeref
  | Ptr b o =>
      match heap s !! b with
      | Some (Some cs) => match cs !! o with
                          | Some _ => Ok tt (set_heap (<[b := Some (<[o := c]> cs)]> (heap s)) s)
                          | None => UB OutOfBounds
                          end
      | _ => UB Dangling
      end
  end.

(** Reading the value of an element. *)
Definition load (p : ptr) : MA V :=
  c <- get_cell p ;;
  match c with
  | Raw => fail ReadRaw
  | Moved => fail ReadMoved
  | Live v => ret v
  end.

(** Pointer arithmetic stays inside [0, length] of a live block; null + 0 is fine. *)
Definition padd (p : ptr) (n : nat) : MA ptr := fun s =>
  match p with
  | Null => if Nat.eqb n 0 then Ok Null s else UB NullDeref
  | Ptr b o =>
      match heap s !! b with
      | Some (Some cs) => if Nat.leb (o + n) (length cs) then Ok (Ptr b (o + n)) s else UB OutOfBounds
      | _ => UB Dangling
      end
  end.

Definition psub (p : ptr) (n : nat) : MA ptr := fun s =>
  match p with
  | Null => if Nat.eqb n 0 then Ok Null s else UB NullDeref
  | Ptr b o =>
      match heap s !! b with
      | Some (Some cs) => if Nat.leb n o then Ok (Ptr b (o - n)) s else UB OutOfBounds
      | _ => UB Dangling
      end
  end.

(** [p - q] for p at or after q in the same block. *)
Definition pdiff (p q : ptr) : MA nat :=
  match p, q with
  | Null, Null => ret 0
  | Ptr b o, Ptr b' o' =>
      if Nat.eqb b b' then if Nat.leb o' o then ret (o - o') else fail PtrDiff else fail PtrDiff
  | _, _ => fail PtrDiff
  end.

Definition ptr_eqb (p q : ptr) : bool :=
  match p, q with
  | Null, Null => true
  | Ptr b o, Ptr b' o' => Nat.eqb b b' && Nat.eqb o o'
  | _, _ => false
  end.

Definition eval_arg (a : arg) : MA V :=
  match a with
  | AVal v => tick ;;; ret v
  | AObj v => (if triv then ret tt else tick) ;;; ret v
  | ARef p => v <- load p ;; (if triv then ret tt else tick) ;;; ret v
  end.

(** allocator_traits::construct(alloc, p, args...) *)
Definition construct (p : ptr) (a : arg) : MA unit :=
  c <- get_cell p ;;
  v <- eval_arg a ;;
  (if negb triv && cell_alive c then modify (add_leaked 1) else ret tt) ;;;
  set_cell p (Live v).

Definition moved_cell (v : V) : cell := if triv then Live v else Moved.

(** construct(alloc, p, std::move( *q)) *)
Definition move_construct (p q : ptr) : MA unit :=
  c <- get_cell p ;;
  v <- load q ;;
  (if negb triv && cell_alive c then modify (add_leaked 1) else ret tt) ;;;
  set_cell q (moved_cell v) ;;;
  modify (add_moved 1) ;;;
  set_cell p (Live v).

(** allocator_traits::destroy *)
Definition destroy (p : ptr) : MA unit :=
  c <- get_cell p ;;
  match c with
  | Raw => if triv then ret tt else fail DestroyDead
  | _ => set_cell p Raw
  end.

Definition assign_check (p : ptr) : MA unit :=
  c <- get_cell p ;;
  match c with
  | Raw => if triv then ret tt else fail AssignRaw
  | _ => ret tt
  end.

(** *p = *q *)
Definition assign_copy (p q : ptr) : MA unit :=
  v <- load q ;;
  assign_check p ;;;
  modify (add_moved 1) ;;;
  set_cell p (Live v).

(** *p = std::move( *q) *)
Definition assign_move (p q : ptr) : MA unit :=
  v <- load q ;;
  assign_check p ;;;
  set_cell q (moved_cell v) ;;;
  modify (add_moved 1) ;;;
  set_cell p (Live v).

(** *p = std::forward<U>(value) *)
Definition assign_arg (p : ptr) (a : arg) : MA unit :=
  v <- eval_arg a ;;
  assign_check p ;;;
  set_cell p (Live v).

(** ** Loops of the standard library and of xme::ranges *)

(** std::ranges::move(first, first+n, out) *)
Fixpoint move_fwd (n : nat) (src dst : ptr) : MA unit :=
  match n with
  | O => ret tt
  | S k =>
      assign_move dst src ;;;
      src' <- padd src 1 ;;
      dst' <- padd dst 1 ;;
      move_fwd k src' dst'
  end.

(** std::ranges::move on const iterators: *out = const T&&, i.e. a copy. *)
Fixpoint copy_fwd (n : nat) (src dst : ptr) : MA unit :=
  match n with
  | O => ret tt
  | S k =>
      assign_copy dst src ;;;
      src' <- padd src 1 ;;
      dst' <- padd dst 1 ;;
      copy_fwd k src' dst'
  end.

(** std::move_backward(last-n, last, out_last) *)
Fixpoint move_bwd (n : nat) (src_end dst_end : ptr) : MA unit :=
  match n with
  | O => ret tt
  | S k =>
      src' <- psub src_end 1 ;;
      dst' <- psub dst_end 1 ;;
      assign_move dst' src' ;;;
      move_bwd k src' dst'
  end.

(** std::move_backward on const iterators. *)
Fixpoint copy_bwd (n : nat) (src_end dst_end : ptr) : MA unit :=
  match n with
  | O => ret tt
  | S k =>
      src' <- psub src_end 1 ;;
      dst' <- psub dst_end 1 ;;
      assign_copy dst' src' ;;;
      copy_bwd k src' dst'
  end.

(** destroy.hpp:9-12 destroy_a(first, last): the loop stops only when the two
    iterators compare equal. *)
Fixpoint destroy_loop (fuel : nat) (first last : ptr) : MA unit :=
  if ptr_eqb first last then ret tt else
  match fuel with
  | O => fail NoFuel
  | S k =>
      destroy first ;;;
      first' <- padd first 1 ;;
      destroy_loop k first' last
  end.
Definition block_len (p : ptr) (s : st) : nat :=
  match p with
  | Ptr b _ => match heap s !! b with Some (Some cs) => length cs | _ => 0 end
  | Null => 0
  end.
Definition destroy_a (first last : ptr) : MA unit :=
  n <- gets (block_len first) ;;
  destroy_loop (S n) first last.

(** destroy.hpp:31-38 destroy_n_a *)
Fixpoint destroy_n (first : ptr) (n : nat) : MA unit :=
  match n with
  | O => ret tt
  | S k => destroy first ;;; first' <- padd first 1 ;; destroy_n first' k
  end.

(** uninitialized.hpp:34-50 uninitialized_fill_n_a; [curr] is shared with the
    handler, which destroys [first, curr). The value is a [const T&] object. *)
Fixpoint fill_loop (first curr : ptr) (n : nat) (a : arg) : MA ptr :=
  match n with
  | O => ret curr
  | S k =>
      on_throw (construct curr a) (destroy_a first curr) ;;;
      curr' <- padd curr 1 ;;
      fill_loop first curr' k a
  end.
Definition uninitialized_fill_n_a (first : ptr) (n : nat) (a : arg) : MA ptr :=
  fill_loop first first n a.

(** uninitialized.hpp:10-24 uninitialized_copy_a. The source is the list of the
    objects its iterators designate. The handler (line 20) runs
    [destroy_a(in_first, out_curr)]: from the position in the *source* to the
    position in the *destination*; a source outside the modelled memory can
    never reach the destination, which is UB. *)
Definition copy_handler (a : arg) (out_curr : ptr) : MA unit :=
  match a with
  | ARef p => destroy_a p out_curr
  | _ => fail PtrDiff
  end.
Fixpoint uninitialized_copy_a (xs : list arg) (out_curr out_last : ptr) : MA ptr :=
  match xs with
  | [] => ret out_curr
  | a :: xs' =>
      if ptr_eqb out_curr out_last then ret out_curr else
      on_throw (construct out_curr a) (copy_handler a out_curr) ;;;
      out' <- padd out_curr 1 ;;
      uninitialized_copy_a xs' out' out_last
  end.

(** ** The Array object *)

Definition get_arr (this : nat) : MA arr := fun s =>
  match objs s !! this with
  | Some (Some a) => Ok a s
  | _ => UB NoObject
  end.
Definition set_arr (this : nat) (a : arr) : MA unit :=
  modify (λ s, set_objs (<[this := Some a]> (objs s)) s).
Definition set_end (this : nat) (p : ptr) : MA unit :=
  a <- get_arr this ;; set_arr this (mkArr (a_begin a) p (a_stor a)).

(** icontainer.hpp:61-76 size() = end() - begin() *)
Definition size (this : nat) : MA nat := a <- get_arr this ;; pdiff (a_end a) (a_begin a).
(** array.hpp:121-123 *)
Definition capacity (this : nat) : MA nat := a <- get_arr this ;; pdiff (a_stor a) (a_begin a).
(** array.hpp:100-117 *)
Definition begin_ (this : nat) : MA ptr := a <- get_arr this ;; ret (a_begin a).
Definition end_ (this : nat) : MA ptr := a <- get_arr this ;; ret (a_end a).

(** icontainer.hpp:14-26 operator[](i) for i >= 0 (a reference: a pointer).
    The address may be formed one past the end but not read there. *)
Definition index (this : nat) (i : nat) : MA ptr := p <- begin_ this ;; padd p i.
Definition at_ (this : nat) (i : nat) : MA V := p <- index this i ;; load p.
(** icontainer.hpp:28-45 *)
Definition empty (this : nat) : MA bool := n <- size this ;; ret (Nat.eqb n 0).
(** icontainer.hpp:48-58 *)
Definition data (this : nat) : MA ptr := begin_ this.
(** icontainer.hpp:79-90 *)
Definition front (this : nat) : MA V := p <- begin_ this ;; load p.
(** icontainer.hpp:93-104: *prev(end()) *)
Definition back (this : nat) : MA V := p <- end_ this ;; q <- psub p 1 ;; load q.

(** Range-for over [begin(), end()): reads every element. *)
Fixpoint read_loop (n : nat) (p : ptr) : MA (list V) :=
  match n with
  | O => ret []
  | S k => v <- load p ;; p' <- padd p 1 ;; r <- read_loop k p' ;; ret (v :: r)
  end.
Definition to_list (this : nat) : MA (list V) :=
  n <- size this ;; p <- begin_ this ;; read_loop n p.

(** array.hpp:49-53 Array(n): body run on an object whose fields are null. *)
Definition ctor_cap (this : nat) (n : nat) : MA unit :=
  p <- alloc n ;;
  q <- padd p n ;;
  set_arr this (mkArr p p q).

(** array.hpp:78-82 ~Array() *)
Definition dtor (this : nat) : MA unit :=
  a <- get_arr this ;;
  destroy_a (a_begin a) (a_end a) ;;;
  match a_begin a with
  | Null => ret tt
  | _ => c <- capacity this ;; dealloc (a_begin a) c
  end.

(** array.hpp:56-59 Array(n, value): delegating, so the destructor runs if the
    body throws. *)
Definition ctor_fill (this : nat) (n : nat) (v : V) : MA unit :=
  ctor_cap this n ;;;
  on_throw
    (a <- get_arr this ;;
     e <- uninitialized_fill_n_a (a_begin a) n (AObj v) ;;
     set_end this e)
    (dtor this).

(** array.hpp:65-70 Array(first, last) (also initializer_list and range
    constructors, lines 61-62 and 72-76): delegating. *)
Definition ctor_range (this : nat) (xs : list arg) : MA unit :=
  ctor_cap this (length xs) ;;;
  on_throw
    (a <- get_arr this ;;
     out <- uninitialized_copy_a xs (a_begin a) (a_stor a) ;;
     set_end this out)
    (dtor this).

Definition refs (p : ptr) (n : nat) : list arg :=
  match p with
  | Null => []
  | Ptr b o => map (λ i, ARef (Ptr b (o + i))) (seq 0 n)
  end.

(** array.hpp:41 Array(const Array&) *)
Definition ctor_copy (this other : nat) : MA unit :=
  a <- get_arr other ;;
  n <- pdiff (a_end a) (a_begin a) ;;
  ctor_range this (refs (a_begin a) n).

(** array.hpp:43-44 Array(Array&&) with 336-339 ArrayData(ArrayData&&) *)
Definition ctor_move (this other : nat) : MA unit :=
  a <- get_arr other ;;
  set_arr other null_arr ;;;
  set_arr this a.

(** array.hpp:125-131 swap with std::ranges::swap of ArrayData: a temporary is
    move-constructed (336-339), then two move-assignments (341-346), each of
    which swaps the three fields of its operands. *)
Definition swap (this other : nat) : MA unit :=
  t <- get_arr this ;;
  set_arr this null_arr ;;;
  (* m_data = std::move(other.m_data) *)
  a <- get_arr this ;;
  b <- get_arr other ;;
  set_arr this b ;;;
  set_arr other a ;;;
  (* when this = other the field-wise self swap changes nothing *)
  (if Nat.eqb this other then set_arr this a else ret tt) ;;;
  (* other.m_data = std::move(tmp) *)
  set_arr other t.

(** A new automatic object: constructor [ctor], removed again if it throws. *)
Definition push_obj : MA nat :=
  i <- gets (λ s, length (objs s)) ;;
  modify (λ s, set_objs (objs s ++ [Some null_arr]) s) ;;;
  ret i.
Definition pop_obj : MA unit := modify (λ s, set_objs (take (length (objs s) - 1) (objs s)) s).
Definition new_array (ctor : nat -> MA unit) : MA nat :=
  i <- push_obj ;;
  on_throw (ctor i) pop_obj ;;;
  ret i.
(** Scope of a temporary: constructed, used, destroyed on every exit. *)
Definition with_tmp {A} (ctor : nat -> MA unit) (body : nat -> MA A) : MA A :=
  i <- new_array ctor ;;
  r <- on_throw (body i) (dtor i ;;; pop_obj) ;;
  dtor i ;;;
  pop_obj ;;;
  ret r.
(** End of the lifetime of a variable. *)
Definition destroy_array (this : nat) : MA unit :=
  dtor this ;;;
  modify (λ s, set_objs (<[this := None]> (objs s)) s).

(** array.hpp:84-87 *)
Definition assign_copy_arr (this other : nat) : MA unit :=
  with_tmp (λ t, ctor_copy t other) (λ t, swap t this).
(** array.hpp:89-92 *)
Definition assign_move_arr (this other : nat) : MA unit :=
  with_tmp (λ t, ctor_move t other) (λ t, swap t this).
(** array.hpp:94-97 *)
Definition assign_list (this : nat) (xs : list arg) : MA unit :=
  with_tmp (λ t, ctor_range t xs) (λ t, swap t this).

(** array.hpp:134-137 *)
Definition clear (this : nat) : MA unit :=
  a <- get_arr this ;;
  destroy_a (a_begin a) (a_end a) ;;;
  set_end this (a_begin a).

(** array.hpp:285-295 *)
Definition grow_storage (this : nat) (n : nat) : MA unit :=
  old_size <- size this ;;
  new_begin <- alloc n ;;
  a <- get_arr this ;;
  k <- pdiff (a_end a) (a_begin a) ;;
  move_fwd k (a_begin a) new_begin ;;;
  match a_begin a with
  | Null => ret tt
  | _ => c <- capacity this ;; dealloc (a_begin a) c
  end ;;;
  e <- padd new_begin old_size ;;
  se <- padd new_begin n ;;
  set_arr this (mkArr new_begin e se).

(** array.hpp:297-307 *)
Definition shrink_storage (this : nat) (n : nat) : MA unit :=
  sz <- size this ;;
  let elements_to_move := Nat.min sz n in
  new_begin <- alloc n ;;
  a <- get_arr this ;;
  mid <- padd (a_begin a) elements_to_move ;;
  k <- pdiff mid (a_begin a) ;;
  move_fwd k (a_begin a) new_begin ;;;
  destroy_a mid (a_end a) ;;;
  c <- capacity this ;;
  dealloc (a_begin a) c ;;;
  e <- padd new_begin elements_to_move ;;
  se <- padd new_begin n ;;
  set_arr this (mkArr new_begin e se).

(** array.hpp:141-144 *)
Definition reserve (this : nat) (n : nat) : MA unit :=
  c <- capacity this ;;
  if Nat.ltb c n then grow_storage this n else ret tt.

(** array.hpp:148-153 *)
Definition resize (this : nat) (n : nat) : MA unit :=
  c <- capacity this ;;
  if Nat.ltb c n then grow_storage this n
  else if Nat.ltb n c then shrink_storage this n
  else ret tt.

(** array.hpp:254-261; the returned reference is the pointer to back(). *)
Definition emplace_back (this : nat) (x : arg) : MA ptr :=
  a <- get_arr this ;;
  (if ptr_eqb (a_end a) (a_stor a) then
     sz <- size this ;;
     grow_storage this (sz + Nat.max sz 1)
   else ret tt) ;;;
  a' <- get_arr this ;;
  construct (a_end a') x ;;;
  e <- padd (a_end a') 1 ;;
  set_end this e ;;;
  e' <- end_ this ;;
  psub e' 1.

(** array.hpp:221-223 *)
Definition push_back (this : nat) (x : arg) : MA unit := emplace_back this x ;;; ret tt.

(** array.hpp:232-235 *)
Fixpoint push_loop (this : nat) (xs : list arg) : MA unit :=
  match xs with
  | [] => ret tt
  | x :: xs' =>
      a <- get_arr this ;;
      construct (a_end a) x ;;;
      e <- padd (a_end a) 1 ;;
      set_end this e ;;;
      push_loop this xs'
  end.
(** array.hpp:227-236 (and the range form 239-243) *)
Definition push_back_range (this : nat) (xs : list arg) : MA unit :=
  sz <- size this ;;
  c <- capacity this ;;
  (if Nat.ltb c (sz + length xs) then grow_storage this (sz + length xs) else ret tt) ;;;
  push_loop this xs.

(** array.hpp:246-250 *)
Definition pop_back (this : nat) : MA unit :=
  sz <- size this ;;
  (if Nat.ltb 0 sz then ret tt else fail AssertFail) ;;;
  a <- get_arr this ;;
  e <- psub (a_end a) 1 ;;
  set_end this e ;;;
  destroy e.

(** array.hpp:310-331 *)
Definition realloc_insert (this : nat) (pos : ptr) (x : arg) : MA ptr :=
  a <- get_arr this ;;
  elements_before <- pdiff pos (a_begin a) ;;
  curr_size <- size this ;;
  let new_size := curr_size + Nat.max curr_size 1 in
  new_start <- alloc new_size ;;
  slot <- padd new_start elements_before ;;
  on_throw
    (construct slot x ;;;
     k1 <- pdiff pos (a_begin a) ;;
     move_fwd k1 (a_begin a) new_start ;;;
     k2 <- pdiff (a_end a) pos ;;
     d2 <- padd new_start (elements_before + 1) ;;
     move_fwd k2 pos d2)
    (destroy slot ;;; dealloc new_start new_size) ;;;
  c <- capacity this ;;
  dealloc (a_begin a) c ;;;
  e <- padd new_start (curr_size + 1) ;;
  se <- padd new_start new_size ;;
  set_arr this (mkArr new_start e se) ;;;
  b <- begin_ this ;;
  padd b elements_before.

(** array.hpp:160-174 *)
Definition insert (this : nat) (pos : ptr) (x : arg) : MA ptr :=
  a <- get_arr this ;;
  if ptr_eqb pos (a_end a) then
    emplace_back this x ;;;
    e <- end_ this ;;
    psub e 1
  else if ptr_eqb (a_end a) (a_stor a) then
    realloc_insert this pos x
  else
    last <- psub (a_end a) 1 ;;
    move_construct (a_end a) last ;;;
    e <- padd (a_end a) 1 ;;
    set_end this e ;;;
    a' <- get_arr this ;;
    src_end <- psub (a_end a') 2 ;;
    dst_end <- psub (a_end a') 1 ;;
    k <- pdiff src_end pos ;;
    move_bwd k src_end dst_end ;;;
    assign_arg pos x ;;;
    ret pos.

(** array.hpp:190-192 and 204-205: construct the source range at p+0, p+1, … *)
Fixpoint construct_range (p : ptr) (xs : list arg) : MA unit :=
  match xs with
  | [] => ret tt
  | x :: xs' => construct p x ;;; p' <- padd p 1 ;; construct_range p' xs'
  end.

(** array.hpp:181-207 (and the range form 213-217) *)
Definition insert_range (this : nat) (pos : ptr) (xs : list arg) : MA ptr :=
  let elements := length xs in
  sz <- size this ;;
  c <- capacity this ;;
  if Nat.ltb c (sz + elements) then
    with_tmp (λ t, ctor_cap t (if Nat.eqb c 0 then elements else c + elements)) (λ t,
      a <- get_arr this ;;
      elements_before <- pdiff pos (a_begin a) ;;
      ta <- get_arr t ;;
      slot <- padd (a_begin ta) elements_before ;;
      construct_range slot xs ;;;
      k1 <- pdiff pos (a_begin a) ;;
      copy_fwd k1 (a_begin a) (a_begin ta) ;;;
      k2 <- pdiff (a_end a) pos ;;
      d2 <- padd (a_begin ta) (elements_before + elements) ;;
      copy_fwd k2 pos d2 ;;;
      sz' <- size this ;;
      e <- padd (a_begin ta) (sz' + elements) ;;
      set_end t e ;;;
      swap this t ;;;
      b <- begin_ this ;;
      padd b elements_before)
  else
    a <- get_arr this ;;
    k <- pdiff (a_end a) pos ;;
    d <- padd (a_end a) elements ;;
    copy_bwd k (a_end a) d ;;;
    set_end this d ;;;
    construct_range pos xs ;;;
    ret pos.

(** array.hpp:265-271 *)
Definition erase (this : nat) (pos : ptr) : MA ptr :=
  destroy pos ;;;
  next <- padd pos 1 ;;
  a <- get_arr this ;;
  k <- pdiff (a_end a) next ;;
  copy_fwd k next pos ;;;
  e <- psub (a_end a) 1 ;;
  set_end this e ;;;
  ret pos.

(** array.hpp:275-282 *)
Definition erase_range (this : nat) (first last : ptr) : MA ptr :=
  elements <- pdiff last first ;;
  destroy_n first elements ;;;
  src <- padd first elements ;;
  a <- get_arr this ;;
  k <- pdiff (a_end a) src ;;
  copy_fwd k src first ;;;
  e <- psub (a_end a) elements ;;
  set_end this e ;;;
  ret first.

End model.
Arguments cell : clear implicits.
Arguments arg : clear implicits.
Arguments st : clear implicits.
