(** Model of std::common_reference and std::common_type for Tuples
    (/repo/include/xme/container/tuple.hpp:163-172) and of the concepts of the standard
    library that ask for them.

    A type of the program with no common reference gives [Rejected]: the member type does not
    exist and concepts are not satisfied. An error inside of a specialisation is [Hard]: the
    program that asks does not compile.

    Simplifications: the common references and types of elements are given by parameters;
    only Tuples are looked at; the tuple that asks is compiled without explicit object
    parameters. *)
From stdpp Require Import list.
From Verif Require Import TypesModel LikeModel.

(** The type that is asked about: Tuple<es...>, const or not, perhaps a reference *)
Inductive refkind := NoRef | ToLValue | ToRValue.
Record tuple_type := TT { tt_const : bool; tt_ref : refkind; tt_elements : list ty }.

(** [meta.trans.other]: XREF(A)<t>, the qualifiers of A added to t *)
Definition xref (a : tuple_type) (t : ty) : ty :=
  let t := if tt_const a then add_const_ty t else t in
  match tt_ref a with NoRef => t | ToLValue => lref t | ToRValue => rref t end.

Section common.
(** std::common_reference and std::common_type of two types of elements *)
Context (cref ctype : ty → ty → option ty).

(** The pack expansion in tuple.hpp:165 and 171: both packs must have one length, and each
    of the types must exist. *)
Fixpoint expand (f : ty → ty → option ty) (ts us : list ty) : outcome (list ty) :=
  match ts, us with
  | [], [] => Accepted []
  | t :: ts, u :: us =>
      match f t u with
      | Some r => and_then (expand f ts us) (λ rs, Accepted (r :: rs))
      | None => Hard
      end
  | _, _ => Hard
  end.
(** tuple.hpp:163-166 basic_common_reference; the qualifiers are part of the template
    arguments *)
Definition basic_common_reference (a b : tuple_type) : outcome tuple_type :=
  and_then (expand (λ t u, cref (xref a t) (xref b u)) (tt_elements a) (tt_elements b)) (λ rs, Accepted (TT false NoRef rs)).
(** [meta.trans.other]: COMMON-REF of references to one class; Tuples that differ only
    convert to prvalues, so that there is none *)
Definition common_ref (a b : tuple_type) : option tuple_type :=
  if same_types (tt_elements a) (tt_elements b) then
    match tt_ref a, tt_ref b with
    | NoRef, _ | _, NoRef => None
    | ToLValue, ToLValue => Some (TT (tt_const a || tt_const b) ToLValue (tt_elements a))
    | ToRValue, ToRValue => Some (TT (tt_const a || tt_const b) ToRValue (tt_elements a))
    | _, _ => Some (TT true ToLValue (tt_elements a))
    end
  else None.
(** [meta.trans.other] std::common_reference: first COMMON-REF, then basic_common_reference,
    whose specialisation takes any two Tuples *)
Definition common_reference (a b : tuple_type) : outcome tuple_type :=
  match common_ref a b with Some r => Accepted r | None => basic_common_reference a b end.

(** [meta.trans.other] std::common_type of the types without qualifiers. tuple.hpp:168-172 is
    for Tuples of one size; for others the conditional operator is asked, which converts one
    operand to the type of the other ([expr.cond]) if that can be done in one direction
    only. *)
Context (inits makes : core → expr → bool) (empty : core → bool).
Definition convertible (es fs : list ty) : bool :=
  match convert_tuple inits makes empty false es (XTuple fs) with Rejected => false | _ => true end.
Definition common_type (es fs : list ty) : outcome (list ty) :=
  if length es =? length fs then expand ctype es fs
  else match convertible es fs, convertible fs es with
       | true, false => Accepted fs
       | false, true => Accepted es
       | _, _ => Rejected
       end.
(** std::is_convertible for Tuples that are objects: a copy or tuple.hpp:23-31 *)
Definition is_convertible_tuple (es fs : list ty) : bool := same_types es fs || convertible es fs.
(** std::common_with, the part without references: both convert to the common type, which is
    the same in both orders *)
Definition common_with (es fs : list ty) : outcome bool :=
  and_then (common_type es fs) (λ r, and_then (common_type fs es) (λ r',
    Accepted (same_types r r' && is_convertible_tuple es r && is_convertible_tuple fs r))).
End common.
