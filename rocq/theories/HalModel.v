(** Models of xme::hal: SharedLibrary (include/xme/hal/shared_library.hpp), the
    environment helpers (include/xme/hal/linux/platform.hpp) and the SIMD macros
    (include/xme/hal/simd_detection.hpp) together with the intrinsics that the
    algorithms use under them. *)
From stdpp Require Import base gmap list list_numbers.
From Coq Require Import ZArith.
Local Open Scope Z_scope.

(** * C strings *)

(** A std::string_view: what lies in memory from data() to the end of the array that it
    points into ([None] when data() is a null pointer) and size(). Bytes are numbers. *)
Record sview := View { v_data : option (list Z); v_size : nat }.
(** What a C function that takes a const char* reads: the bytes before the first NUL;
    [None] when there is none before the end of the array or the pointer is null. *)
Fixpoint c_bytes (l : list Z) : option (list Z) :=
  match l with
  | [] => None
  | b :: l' => if decide (b = 0) then Some [] else (b ::.) <$> c_bytes l'
  end.
Definition c_string (v : sview) : option (list Z) := v_data v ≫= c_bytes.

(** * SharedLibrary *)

(** The dynamic loader: which handle dlopen gives for a name ([None] as the name is a
    null pointer, for the main program; [None] as the handle means that it fails and
    returns a null pointer) and how often each handle is open. dlopen of a loaded library
    returns the same handle and counts; dlclose counts down (dlopen(3)). *)
Record loader := Loader { l_find : option (list Z) → option positive; l_count : gmap positive nat }.
Definition count_of (w : loader) (h : positive) : nat := default 0%nat (l_count w !! h).
(** dlopen(3) *)
Definition dlopen (w : loader) (name : option (list Z)) : option positive * loader :=
  match l_find w name with
  | None => (None, w)
  | Some h => (Some h, Loader (l_find w) (<[h := S (count_of w h)]> (l_count w)))
  end.
(** dlclose(3); [None] is undefined: the pointer is null or the handle is not open *)
Definition dlclose (w : loader) (m : option positive) : option loader :=
  h ← m; match count_of w h with
  | O => None
  | S n => Some (Loader (l_find w) (<[h := n]> (l_count w)))
  end.

(** The objects of type SharedLibrary by number, each with its m_library (line 66;
    [None] is nullptr), and the loader. *)
Record libs := Libs { objects : gmap nat (option positive); world : loader }.
(** Operations; [None] as their result is undefined behaviour, which includes using an
    object that does not exist. *)
Inductive lib_op :=
  | LNew (o : nat)                      (* SharedLibrary o; *)
  | LNewOpen (o : nat) (name : sview)   (* SharedLibrary o(name); *)
  | LNewMove (o p : nat)                (* SharedLibrary o(std::move(p)); *)
  | LAssign (o p : nat)                 (* o = std::move(p); *)
  | LOpen (o : nat) (name : sview)      (* o.open(name); *)
  | LClose (o : nat)                    (* o.close(); *)
  | LDestroy (o : nat).                 (* o.~SharedLibrary(); *)
(** The file name that dlopen reads through data(). *)
Definition file_name (name : sview) : option (option (list Z)) :=
  match v_data name with None => Some None | Some l => Some <$> c_bytes l end.
(** shared_library.hpp:40-45 *)
Definition lib_open (o : nat) (name : sview) (s : libs) : option libs :=
  _ ← objects s !! o;
  n ← file_name name;
  let (h, w) := dlopen (world s) n in
  Some (Libs (<[o := h]> (objects s)) w).
(** shared_library.hpp:47-52: m_library is kept *)
Definition lib_close (o : nat) (s : libs) : option libs :=
  m ← objects s !! o;
  w ← dlclose (world s) m;
  Some (Libs (objects s) w).
(** shared_library.hpp:35-38 *)
Definition lib_is_open (o : nat) (s : libs) : option bool :=
  m ← objects s !! o; Some (bool_decide (m ≠ None)).
(** shared_library.hpp:13 and 66 *)
Definition lib_new (o : nat) (s : libs) : option libs :=
  match objects s !! o with Some _ => None | None => Some (Libs (<[o := None]> (objects s)) (world s)) end.
(** shared_library.hpp:28 *)
Definition lib_new_open (o : nat) (name : sview) (s : libs) : option libs :=
  s1 ← lib_new o s; lib_open o name s1.
(** shared_library.hpp:17-19 *)
Definition lib_new_move (o p : nat) (s : libs) : option libs :=
  m ← objects s !! p; s1 ← lib_new o s;
  Some (Libs (<[p := None]> (<[o := m]> (objects s1))) (world s1)).
(** shared_library.hpp:23-26 *)
Definition lib_assign (o p : nat) (s : libs) : option libs :=
  a ← objects s !! o; b ← objects s !! p;
  Some (Libs (<[p := a]> (<[o := b]> (objects s))) (world s)).
(** shared_library.hpp:30-33; the object's life ends *)
Definition lib_destroy (o : nat) (s : libs) : option libs :=
  m ← objects s !! o;
  s1 ← (match m with Some _ => lib_close o s | None => Some s end);
  Some (Libs (delete o (objects s1)) (world s1)).
Definition lib_step (op : lib_op) (s : libs) : option libs :=
  match op with
  | LNew o => lib_new o s
  | LNewOpen o n => lib_new_open o n s
  | LNewMove o p => lib_new_move o p s
  | LAssign o p => lib_assign o p s
  | LOpen o n => lib_open o n s
  | LClose o => lib_close o s
  | LDestroy o => lib_destroy o s
  end.
Fixpoint lib_run (ops : list lib_op) (s : libs) : option libs :=
  match ops with [] => Some s | op :: ops' => s1 ← lib_step op s; lib_run ops' s1 end.

(** * Environment variables *)

(** environ: the strings "NAME=VALUE" *)
Definition equals : Z := 61.
Notation environ := (list (list Z)).
(** The value in [e] when [e] is the string of the variable [name]. *)
Fixpoint entry_value (name e : list Z) : option (list Z) :=
  match name, e with
  | [], b :: e' => if decide (b = equals) then Some e' else None
  | a :: name', b :: e' => if decide (a = b) then entry_value name' e' else None
  | _, [] => None
  end.
(** getenv(3): the first string of that name *)
Fixpoint getenv (name : list Z) (env : environ) : option (list Z) :=
  match env with [] => None | e :: env' => match entry_value name e with Some v => Some v | None => getenv name env' end end.
(** setenv(3) and unsetenv(3) change nothing (EINVAL) for an empty name or one with
    '='. *)
Definition valid_name (name : list Z) : bool := bool_decide (name ≠ [] ∧ equals ∉ name).
(** setenv(name, value, 1): the first string of the name is replaced, or one is added *)
Fixpoint put_entry (name value : list Z) (env : environ) : environ :=
  match env with
  | [] => [name ++ equals :: value]
  | e :: env' => match entry_value name e with Some _ => (name ++ equals :: value) :: env' | None => e :: put_entry name value env' end
  end.
Definition setenv (name value : list Z) (env : environ) : environ :=
  if valid_name name then put_entry name value env else env.
(** unsetenv(3): all strings of the name are removed *)
Definition unsetenv (name : list Z) (env : environ) : environ :=
  if valid_name name then filter (λ e, entry_value name e = None) env else env.
(** linux/platform.hpp:6-8. secure_getenv gives a null pointer in a process that runs
    with raised privileges ([secure]). The outer [None] is undefined behaviour, the inner
    one a null pointer; otherwise the string at the returned pointer. *)
Definition get_environment_variable (secure : bool) (name : sview) (env : environ) : option (option (list Z)) :=
  n ← c_string name; Some (if secure then None else getenv n env).
(** linux/platform.hpp:10-17 *)
Definition set_environment_variable (name value : sview) (env : environ) : option environ :=
  if decide (v_size value = 0%nat) then n ← c_string name; Some (unsetenv n env)
  else n ← c_string name; v ← c_string value; Some (setenv n v env).

(** * SIMD levels *)

Inductive level := MMX | SSE1 | SSE2 | SSE3 | SSSE3 | SSE41 | SSE42 | AVX | AVX2 | AVX512F.
#[global] Instance level_eq_dec : EqDecision level.
Proof. solve_decision. Defined.
(** The values of the XME_SIMD_<level> macros: simd_detection.hpp:146-155 *)
Definition mask (l : level) : Z :=
  match l with
  | MMX => 0x1 | SSE1 => 0x2 | SSE2 => 0x4 | SSE3 => 0x8 | SSSE3 => 0x10
  | SSE41 => 0x20 | SSE42 => 0x40 | AVX => 0x80 | AVX2 => 0x100 | AVX512F => 0x200
  end.
(** The macros XME_SIMD_ENABLE_<level>: [None] when not defined, otherwise the
    replacement list (the empty list for a bare #define, ["1"] after -D without a value);
    and whether a macro was defined again with another replacement list, which is
    ill-formed ([cpp.replace]). *)
Record macros := Macros { enable : level → option (list Z); clash : bool }.
Definition define (l : level) (m : macros) : macros :=
  Macros (λ k, if decide (k = l) then Some [] else enable m k)
         (clash m || bool_decide (enable m l ≠ None ∧ enable m l ≠ Some [])).
Definition defined (l : level) (m : macros) : bool := bool_decide (enable m l ≠ None).
(** The values of the macros XME_SIMD_USE_<level> *)
Definition uses := level → bool.
Definition no_uses : uses := λ _, false.
Definition use (l : level) (b : bool) (u : uses) : uses := λ k, if decide (k = l) then b else u k.
(** One block "#if defined(XME_SIMD_ENABLE_l) / #define XME_SIMD_ENABLE_below /
    #define XME_SIMD_USE_l true / #else / #define XME_SIMD_USE_l false / #endif" *)
Definition block (l : level) (below : option level) (s : macros * uses) : macros * uses :=
  let (m, u) := s in
  if defined l m then (match below with Some b => define b m | None => m end, use l true u)
  else (m, use l false u).
(** simd_detection.hpp:74-141, in the order of the file *)
Definition enable_section (m : macros) : macros * uses :=
  block MMX None (block SSE1 (Some MMX) (block SSE2 (Some SSE1) (block SSE3 (Some SSE2)
    (block SSSE3 (Some SSE3) (block SSE41 (Some SSSE3) (block SSE42 (Some SSE41)
    (block AVX (Some SSE42) (block AVX2 (Some AVX) (block AVX512F (Some AVX2) (m, no_uses)))))))))).
(** simd_detection.hpp:157-169; true * mask and false * mask *)
Definition mul_flag (b : bool) (l : level) : Z := if b then mask l else 0.
Definition simd_mask (u : uses) : Z :=
  Z.lor (Z.lor (Z.lor (Z.lor (Z.lor (Z.lor (Z.lor (Z.lor (Z.lor
    (mul_flag (u MMX) MMX) (mul_flag (u SSE1) SSE1)) (mul_flag (u SSE2) SSE2)) (mul_flag (u SSE3) SSE3))
    (mul_flag (u SSSE3) SSSE3)) (mul_flag (u SSE41) SSE41)) (mul_flag (u SSE42) SSE42)) (mul_flag (u AVX) AVX))
    (mul_flag (u AVX2) AVX2)) (mul_flag (u AVX512F) AVX512F).
(** simd_detection.hpp:186 *)
Definition enabled_simd (m : macros) : Z := simd_mask (snd (enable_section m)).
(** simd_detection.hpp:8-66 and 185: XME_SIMD_HAS_<level> is whether the
    compiler defines the macro of the level *)
Definition supported_simd (has : level → bool) : Z := simd_mask has.
(** simd_detection.hpp:171-183 the enumerators of ESimd *)
Definition esimd (l : level) : Z :=
  match l with
  | MMX => mask MMX | SSE1 => mask SSE1 | SSE2 => mask SSE2 | SSE3 => mask SSE3 | SSSE3 => mask SSSE3 | SSE41 => mask SSE41
  | SSE42 => mask SSE42 | AVX => mask AVX | AVX2 => mask AVX2 | AVX512F => mask AVX512F
  end.
(** simd_detection.hpp:188-191 and 193-196: the underlying type is std::uint32_t *)
Definition simd_or (a b : Z) : Z := Z.lor a b mod 2 ^ 32.
Definition simd_and (a b : Z) : Z := Z.land a b mod 2 ^ 32.

(** The level that each intrinsic belongs to (Intel Intrinsics Guide). *)
Inductive intrinsic := mm_set_epi8 | mm_set1 | mm_cmpeq_8_16_32 | mm_cmpeq_64 | mm_movemask_epi8 | mm_movemask_ps | mm_movemask_pd
  | mm_loadu | mm_storeu | mm_shuffle_epi8
  | mm256_set1 | mm256_set_epi8 | mm256_cmpeq | mm256_movemask_epi8 | mm256_movemask_ps_pd | mm256_loadu | mm256_storeu
  | mm256_shuffle_epi8 | mm256_permute2x128.
Definition intrinsic_level (i : intrinsic) : level :=
  match i with
  | mm_movemask_ps => SSE1
  | mm_set_epi8 | mm_set1 | mm_cmpeq_8_16_32 | mm_movemask_epi8 | mm_movemask_pd | mm_loadu | mm_storeu => SSE2
  | mm_shuffle_epi8 => SSSE3
  | mm_cmpeq_64 => SSE41
  | mm256_set1 | mm256_set_epi8 | mm256_movemask_ps_pd | mm256_loadu | mm256_storeu => AVX
  | mm256_cmpeq | mm256_movemask_epi8 | mm256_shuffle_epi8 | mm256_permute2x128 => AVX2
  end.
(** The intrinsics in find_simd<size> (find.hpp:13-68) under the given
    XME_SIMD_USE_* macros; [None]: the static_assert of line 67 fails or, without SIMD,
    the function is not called. *)
Definition find_intrinsics (u : uses) (size : nat) : option (list intrinsic) :=
  if u AVX2 then
    match size with
    | 1%nat | 2%nat => Some [mm256_set1; mm256_cmpeq; mm256_movemask_epi8]
    | 4%nat | 8%nat => Some [mm256_set1; mm256_cmpeq; mm256_movemask_ps_pd]
    | _ => None
    end
  else if u SSE2 then
    match size with
    | 1%nat | 2%nat => Some [mm_set1; mm_cmpeq_8_16_32; mm_movemask_epi8]
    | 4%nat => Some [mm_set1; mm_cmpeq_8_16_32; mm_movemask_ps]
    | 8%nat => Some [mm_set1; mm_cmpeq_64; mm_movemask_pd]
    | _ => None
    end
  else None.
(** The same for reverse_simd<1> and the variable shuffle (reverse.hpp:13-14 and
    16-44) *)
Definition reverse_intrinsics (u : uses) : list intrinsic :=
  mm_set_epi8 ::
  (if u AVX2 then [mm256_set_epi8; mm256_loadu; mm256_shuffle_epi8; mm256_permute2x128; mm256_storeu]
   else if u SSE3 then [mm_loadu; mm_shuffle_epi8; mm_storeu] else []).
