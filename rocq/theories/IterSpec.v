(** The C++ iterator requirements ([bidirectional.iterators],
    [random.access.iterators]) as laws about positions.

    [pos it k] says that [it] points at position [k] of a range of [n] elements
    whose k-th element is the object at address [addr k]. *)
From stdpp Require Import list.
From Coq Require Import ZArith.
From Verif Require Import Base IterModel.
Local Open Scope Z_scope.
Local Open Scope mon_scope.

Section laws.
Context {St A It : Type} (I : iter St A It) (s : St) (n : Z) (addr : Z → A) (pos : It → Z → Prop).

Record bidirectional : Prop := {
  bi_range it k : pos it k → 0 <= k <= n;
  bi_deref it k : pos it k → k < n → i_deref I it s = Ok (addr k) s;
  bi_arrow it k : pos it k → k < n → i_arrow I it s = Ok (addr k) s;
  bi_incr it k : pos it k → k < n → ∃ it', i_incr I it s = Ok it' s ∧ pos it' (k + 1);
  bi_pincr it k : pos it k → k < n → ∃ old it', i_pincr I it s = Ok (old, it') s ∧ pos old k ∧ pos it' (k + 1);
  bi_decr it k : pos it k → 0 < k → ∃ it', i_decr I it s = Ok it' s ∧ pos it' (k - 1);
  bi_pdecr it k : pos it k → 0 < k → ∃ old it', i_pdecr I it s = Ok (old, it') s ∧ pos old k ∧ pos it' (k - 1);
  bi_eq a b j k : pos a j → pos b k → i_eq I a b s = Ok (j =? k) s
}.

Record random_access : Prop := {
  ra_add it k m : pos it k → 0 <= k + m <= n → ∃ it', i_add I it m s = Ok it' s ∧ pos it' (k + m);
  ra_radd it k m : pos it k → 0 <= k + m <= n → ∃ it', i_radd I m it s = Ok it' s ∧ pos it' (k + m);
  ra_addeq it k m : pos it k → 0 <= k + m <= n → ∃ it', i_addeq I it m s = Ok it' s ∧ pos it' (k + m);
  ra_sub it k m : pos it k → 0 <= k - m <= n → ∃ it', i_sub I it m s = Ok it' s ∧ pos it' (k - m);
  ra_subeq it k m : pos it k → 0 <= k - m <= n → ∃ it', i_subeq I it m s = Ok it' s ∧ pos it' (k - m);
  ra_diff a b j k : pos a j → pos b k → i_diff I a b s = Ok (j - k) s;
  ra_index it k m : pos it k → 0 <= k + m < n → i_index I it m s = Ok (addr (k + m)) s
}.

(** a < b exactly if b - a > 0, and so on. *)
Definition ordered : Prop := ∀ a b j k, pos a j → pos b k → i_cmp I a b s = Ok (j ?= k) s.
(** The opposite order. *)
Definition ordered_backwards : Prop := ∀ a b j k, pos a j → pos b k → i_cmp I a b s = Ok (k ?= j) s.
End laws.

(** [for(it = first; it != last; ++it) … *it …]: the addresses visited. *)
Fixpoint visit {St A It} (I : iter St A It) (fuel : nat) (first last : It) : M St (list A) :=
  match fuel with
  | O => fail NoFuel
  | S fuel =>
      e <- i_eq I first last ;;
      if (e : bool) then ret [] else
      x <- i_deref I first ;;
      first' <- i_incr I first ;;
      r <- visit I fuel first' last ;;
      ret (x :: r)
  end.

(** Reading the objects at the given addresses. *)
Fixpoint read_all {V} (ps : list Z) : M (list V) (list V) :=
  match ps with
  | [] => ret []
  | p :: ps => v <- read p ;; r <- read_all ps ;; ret (v :: r)
  end.

(** Positions of a pointer and of the classes wrapped around it. *)
Definition ptr_pos {V} (l : list V) (p k : Z) : Prop := p = k ∧ 0 <= k <= Z.of_nat (length l).
Definition array_pos {V} (l : list V) (it : array_it) (k : Z) : Prop := ptr_pos l (m_cursor it) k.
Definition rev_pos {It} (n : Z) (pos : It → Z → Prop) (it : rev_it It) (k : Z) : Prop := pos (r_current it) (n - k).
Definition const_pos {It} (pos : It → Z → Prop) (it : const_it It) (k : Z) : Prop := pos (c_current it) k.
