(** Theorems about the detection headers. *)
From stdpp Require Import base gmap list strings.
From Coq Require Import ZArith Lia.
From Verif Require Import DetectModel.
Local Open Scope Z_scope.
Local Open Scope string_scope.

(** * Specification *)
Definition is_defined (e : macros) (m : string) : Prop := is_Some (e !! m).
(** What the headers define, none of which is defined before *)
Definition own : list string :=
  ["XME_ARCH_X86"; "XME_ARCH_ARM"; "XME_COMPILER_CLANG"; "XME_COMPILER_GCC"; "XME_LIBSTD_CLANG"; "XME_LIBSTD_GCC";
   "XME_PLATFORM_WINDOWS"; "XME_PLATFORM_APPLE"; "XME_PLATFORM_LINUX"; "DLLEXPORT"; "DLLIMPORT";
   "XME_CPP23"; "XME_CPP20"; "XME_CONSTEXPR"; "XME_CONSTEXPR20"; "XME_INLINE"].
Definition fresh (e : macros) : Prop := ∀ m, m ∈ own → e !! m = None.
(** [m] is true or false (1 or 0) according to [P]. *)
Definition flag (e : macros) (m : string) (P : Prop) : Prop := ∃ b, e !! m = Some (Num (Z.b2z b)) ∧ (b = true ↔ P).
(** The header leaves all other macros alone. *)
Definition leaves (e e' : macros) : Prop := ∀ m, m ∉ own → e' !! m = e !! m.

(** * Conditions *)
Lemma leaves_refl e : leaves e e. Proof. done. Qed.
Lemma leaves_insert e e' m b : m ∈ own → leaves e e' → leaves e (<[m := b]> e').
Proof. intros Hm H k Hk. rewrite lookup_insert_ne by (intros <-; done). by apply H. Qed.
(** The truth of conditions made of [defined] *)
Fixpoint holds (attrs : string → bool) (e : macros) (c : cond) : Prop :=
  match c with
  | Defined m => is_defined e m | HasAttribute a => attrs a = true | LOr a b | BOr a b => holds attrs e a ∨ holds attrs e b
  | _ => False
  end.
Fixpoint simple (c : cond) : bool :=
  match c with Defined _ | HasAttribute _ => true | LOr a b | BOr a b => simple a && simple b | _ => false end.
Lemma value_simple attrs e c : simple c = true → ∃ b, value attrs e c = Some (Z.b2z b) ∧ (b = true ↔ holds attrs e c).
Proof.
  induction c as [m|m|z|a|a IHa b IHb|a IHa b IHb|]; simpl; intros Hs; try discriminate.
  - unfold is_defined. destruct (e !! m); [exists true|exists false]; split; try done; split; eauto; try done. by intros [? ?].
  - destruct (attrs a); [exists true|exists false]; done.
  - apply andb_prop in Hs as [Ha Hb]. destruct (IHa Ha) as (x & -> & Hx), (IHb Hb) as (y & -> & Hy). exists (x || y).
    split; [by destruct x, y|]. destruct x, y; simpl; naive_solver.
  - apply andb_prop in Hs as [Ha Hb]. destruct (IHa Ha) as (x & -> & Hx), (IHb Hb) as (y & -> & Hy). exists (x || y).
    split; [by destruct x, y|]. destruct x, y; simpl; naive_solver.
Qed.
Ltac is_own := apply (bool_decide_unpack _); vm_compute; exact I.
Lemma defined_insert (e : macros) m b k : m ≠ k → is_defined (<[m := b]> e) k ↔ is_defined e k.
Proof. intros H. unfold is_defined. by rewrite lookup_insert_ne. Qed.
(** Decide the first condition, which consists of [defined]s only, and go on. *)
Ltac known F := repeat match goal with
  | |- context [<[?m := _]> _ !! ?m] => rewrite lookup_insert
  | |- context [<[?m := ?b]> ?e !! ?k] => rewrite (lookup_insert_ne e m k b) by done
  | |- context [?e !! ?m] => is_var e; rewrite (F m) by is_own
  end.
Ltac go F := repeat (progress (cbn -[lookup insert value own]; known F;
  repeat first [rewrite (decide_False (P := _ = _)) by done | rewrite (decide_True (P := _ = _)) by done])).
Ltac branch_on c H := match goal with |- context [value ?a ?e c] =>
  let E := fresh in let v := fresh "v" in
  destruct (value_simple a e c eq_refl) as (v & E & H); rewrite E; clear E; cbn [holds] in H; rewrite ?defined_insert in H by done; destruct v end.
Ltac branch H := match goal with |- context [value ?a ?e ?c] =>
  let E := fresh in let v := fresh "v" in
  destruct (value_simple a e c eq_refl) as (v & E & H); rewrite E; clear E; cbn [holds] in H; rewrite ?defined_insert in H by done; destruct v end.
Ltac idc := match goal with |- context [value ?a ?e (Id ?m)] => unfold value at 1 end.
Ltac lv := repeat (apply leaves_insert; [is_own|]); apply leaves_refl.
Ltac flg := unfold flag; known tt; first [exists true; split; [reflexivity|tauto] | exists false; split; [reflexivity|]; intuition discriminate].
Ltac done_ := eexists; split; [reflexivity|]; split; [lv|].

Ltac fin F := unfold is_defined in *; known F;
  assert (true = true) by reflexivity; assert (false ≠ true) by discriminate;
  assert (¬ is_Some (@None body)) by (intros [? ?]; discriminate);
  repeat match goal with |- context [is_Some (Some ?b)] => let Q := fresh in
    let P := fresh in set (P := is_Some (Some b)) in *; assert (Q : P) by (unfold P; eauto); clearbody P end; tauto.

Theorem architecture_macros : ∀ attrs e, fresh e → ∃ e', preprocess attrs architecture e = Some (e', []) ∧ leaves e e' ∧
  flag e' "XME_ARCH_X86" (is_defined e "__i386__" ∨ is_defined e "__x86_64__" ∨ is_defined e "_M_IX86" ∨ is_defined e "__amd64__" ∨ is_defined e "_M_AMD64") ∧
  flag e' "XME_ARCH_ARM" (is_defined e "__arm__" ∨ is_defined e "_M_ARM").
Proof.
  intros attrs e F. unfold preprocess, architecture. cbn [run seq]. unfold run1.
  branch H1; go F; branch H2; go F; done_; split; flg.
Qed.
(** A 64-bit ARM target is neither. *)
Theorem architecture_arm_refuted : ∃ attrs e e', fresh e ∧ is_defined e "__aarch64__" ∧ preprocess attrs architecture e = Some (e', []) ∧
  e' !! "XME_ARCH_X86" = Some (Num 0) ∧ e' !! "XME_ARCH_ARM" = Some (Num 0).
Proof.
  exists (λ _, true), (<["__aarch64__" := Num 1]> ∅). eexists. split; [|split; [eexists; reflexivity|split; [reflexivity|split; reflexivity]]].
  intros m Hm. rewrite lookup_insert_ne; [apply lookup_empty|]. intros <-. revert Hm. apply (bool_decide_unpack _). vm_compute. exact I.
Qed.

(** ** Compiler and standard library *)
(** Clang, which also defines __GNUC__, is not taken for GCC. *)
Theorem compiler_macros : ∀ attrs e, fresh e → ∃ e', preprocess attrs compiler e = Some (e', []) ∧ leaves e e' ∧
  (is_defined e' "XME_COMPILER_CLANG" ↔ is_defined e "__clang__") ∧
  (is_defined e' "XME_COMPILER_GCC" ↔ is_defined e "__GNUC__" ∧ ¬ is_defined e "__clang__").
Proof.
  intros attrs e F. unfold preprocess, compiler. cbn [run seq]. unfold run1.
  branch_on (Defined "__clang__") H1; go F; [|branch H2; go F]; done_; fin F.
Qed.
(** libstdc++ is recognised. *)
Theorem std_library_partial : ∀ attrs e, fresh e → ¬ is_defined e "__LIBCPP_VERSION" → ∃ e', preprocess attrs std_library e = Some (e', []) ∧ leaves e e' ∧
  (is_defined e' "XME_LIBSTD_GCC" ↔ is_defined e "__GLIBCXX__") ∧ ¬ is_defined e' "XME_LIBSTD_CLANG".
Proof.
  intros attrs e F Hn. unfold preprocess, std_library. cbn [run seq]. unfold run1.
  branch_on (Defined "__LIBCPP_VERSION") H1; go F; [exfalso; tauto|branch H2; go F]; done_; fin F.
Qed.
(** libc++ defines _LIBCPP_VERSION, which the header does not look at. *)
Theorem std_library_refuted : ∃ attrs e e', fresh e ∧ is_defined e "_LIBCPP_VERSION" ∧ preprocess attrs std_library e = Some (e', []) ∧
  ¬ is_defined e' "XME_LIBSTD_CLANG".
Proof.
  exists (λ _, true), (<["_LIBCPP_VERSION" := Num 170000]> ∅). eexists. split; [|split; [eexists; reflexivity|split; [reflexivity|intros [? ?]; discriminate]]].
  intros m Hm. rewrite lookup_insert_ne; [apply lookup_empty|]. intros <-. revert Hm. apply (bool_decide_unpack _). vm_compute. exact I.
Qed.

(** ** Platforms *)
Lemma id_value attrs (e : macros) m z : e !! m = Some (Num z) → value attrs e (Id m) = Some z.
Proof. intros H. simpl. by rewrite H. Qed.
Ltac ids := repeat match goal with |- context [value ?a ?e (Id ?m)] =>
  first [rewrite (id_value a e m 0) by (known tt; reflexivity) | rewrite (id_value a e m 1) by (known tt; reflexivity)] end.
Theorem platform_flags : ∀ attrs e, fresh e → ∃ e', preprocess attrs platform_macros e = Some (e', []) ∧ leaves e e' ∧
  flag e' "XME_PLATFORM_WINDOWS" (is_defined e "_WIN32" ∨ is_defined e "_WIN64") ∧
  flag e' "XME_PLATFORM_APPLE" (is_defined e "__APPLE__") ∧ flag e' "XME_PLATFORM_LINUX" (is_defined e "__linux__") ∧
  (is_defined e' "DLLEXPORT" ↔ is_defined e "_WIN32" ∨ is_defined e "_WIN64" ∨ is_defined e "__linux__") ∧
  (is_defined e' "DLLIMPORT" ↔ is_defined e' "DLLEXPORT").
Proof.
  intros attrs e F. unfold preprocess, platform_macros. cbn [run seq]. unfold run1.
  branch H1; go F; branch H2; go F; branch H3; go F; ids; go F; done_;
    (split; [flg|split; [flg|split; [flg|]]]); fin F.
Qed.
(** Functions and classes are exported as the platform requires. *)
Theorem platform_export_partial : ∀ attrs e, fresh e → ∃ e', preprocess attrs platform_macros e = Some (e', []) ∧
  (is_defined e "_WIN32" → e' !! "DLLEXPORT" = Some (Text "__declspec(dllexport)") ∧ e' !! "DLLIMPORT" = Some (Text "__declspec(dllimport)")) ∧
  (is_defined e "__linux__" → ¬ is_defined e "_WIN32" → ¬ is_defined e "_WIN64" →
    e' !! "DLLEXPORT" = Some (Text "__attribute__((visibility(""default"")))") ∧ e' !! "DLLIMPORT" = e' !! "DLLEXPORT").
Proof.
  intros attrs e F. unfold preprocess, platform_macros. cbn [run seq]. unfold run1.
  branch H1; go F; branch H2; go F; branch H3; go F; ids; go F; (eexists; split; [reflexivity|]); known F;
    (split; [intros W|intros W W1 W2]); try (split; reflexivity); exfalso; clear F H2;
    assert (true = true) by reflexivity; assert (false ≠ true) by discriminate; tauto.
Qed.
(** On macOS there is no DLLEXPORT. *)
Theorem platform_export_refuted : ∃ attrs e e', fresh e ∧ is_defined e "__APPLE__" ∧ preprocess attrs platform_macros e = Some (e', []) ∧
  e' !! "XME_PLATFORM_APPLE" = Some (Num 1) ∧ ¬ is_defined e' "DLLEXPORT".
Proof.
  exists (λ _, true), (<["__APPLE__" := Num 1]> ∅). eexists.
  split; [|split; [eexists; reflexivity|split; [reflexivity|split; [reflexivity|intros [? ?]; discriminate]]]].
  intros m Hm. rewrite lookup_insert_ne; [apply lookup_empty|]. intros <-. revert Hm. apply (bool_decide_unpack _). vm_compute. exact I.
Qed.

(** ** SharedLibrary and the environment functions *)
(** The class is complete (its member is declared and its functions do something) on Linux ... *)
Lemma posix_step attrs n (e : macros) w x s : e !! "XME_PLATFORM_WINDOWS" = Some (Num (Z.b2z w)) →
  e !! "XME_PLATFORM_LINUX" = Some (Num (Z.b2z x)) → e !! "XME_PLATFORM_MAC" = None →
  run1 attrs (run attrs (S (S n))) (is_posix [Other s]) e = Some (e, if w then [] else if x then [s] else []).
Proof. intros H1 H2 H3. unfold is_posix, run1. cbn [value]. rewrite H1. destruct w; [done|]. cbn. rewrite H2, H3. by destruct x. Qed.
Lemma seq_app step ls ks : ∀ e, seq step (app ls ks) e =
  ('(e1, o) ← seq step ls e; '(e2, o') ← seq step ks e1; Some (e2, app o o')).
Proof.
  induction ls as [|l ls IH]; intros e.
  - cbn. destruct (seq step ks e) as [[? ?]|]; done.
  - cbn [app seq]. destruct (step l e) as [[e1 o]|]; [|done]. cbn [mbind option_bind]. rewrite IH. cbn [mbind option_bind].
    destruct (seq step ls e1) as [[e2 o1]|]; [|done]. cbn [mbind option_bind].
    destruct (seq step ks e2) as [[e3 o2]|]; [|done]. cbn [mbind option_bind]. by rewrite (assoc_L app).
Qed.
Lemma run_app attrs n ls ks e : run attrs n (app ls ks) e =
  ('(e1, o) ← run attrs n ls e; '(e2, o') ← run attrs n ks e1; Some (e2, app o o')).
Proof. destruct n as [|n]; [done|]. apply seq_app. Qed.
Definition complete : list string :=
  ["include dlfcn.h"; "use m_library"; "open: dlopen"; "close: dlclose"; "proc_address: return dlsym"; "declare m_library"].
Theorem shared_library_platform_partial : ∀ attrs e, fresh e → e !! "XME_PLATFORM_MAC" = None → ∃ e' o,
  preprocess attrs shared_library e = Some (e', o) ∧
  (is_defined e "__linux__" → ¬ is_defined e "_WIN32" → ¬ is_defined e "_WIN64" → o = complete) ∧
  (¬ is_defined e "__linux__" ∨ is_defined e "_WIN32" ∨ is_defined e "_WIN64" → o = ["use m_library"]).
Proof.
  intros attrs e F M. destruct (platform_flags attrs e F) as (e' & Hp & Hl & (w & Hw & Ew) & _ & (x & Hx & Ex) & _).
  assert (M' : e' !! "XME_PLATFORM_MAC" = None) by (rewrite Hl; [exact M|]; apply (bool_decide_unpack _); vm_compute; exact I).
  unfold preprocess, shared_library. rewrite run_app. unfold preprocess in Hp. rewrite Hp. cbn [mbind option_bind run seq].
  repeat (rewrite (posix_step attrs 2 e' w x) by done; cbn [mbind option_bind]). cbn [run1 mbind option_bind].
  repeat (rewrite (posix_step attrs 2 e' w x) by done; cbn [mbind option_bind]).
  assert (true = true) by reflexivity; assert (false ≠ true) by discriminate.
  do 2 eexists. split; [reflexivity|]. clear - Ew Ex. destruct w, x; (split; [intros L W1 W2|intros H]); try reflexivity; exfalso; intuition congruence.
Qed.
(** ... but on Windows and macOS the functions use a member that is not declared. *)
Theorem shared_library_platform_refuted : Forall (λ target, ∃ attrs e' o,
    preprocess attrs shared_library (<[target := Num 1]> ∅) = Some (e', o) ∧ "use m_library" ∈ o ∧ "declare m_library" ∉ o)
  ["_WIN32"; "__APPLE__"].
Proof.
  rewrite !Forall_cons, Forall_nil. repeat split; (exists (λ _, true); do 2 eexists; split; [vm_compute; reflexivity|]; split; apply (bool_decide_unpack _); vm_compute; exact I).
Qed.
(** The environment functions exist on Linux only. *)
Theorem environment_platform_partial : ∀ attrs e, fresh e → ∃ e' o, preprocess attrs platform e = Some (e', o) ∧
  (is_defined e "__linux__" → ¬ is_defined e "_WIN32" → ¬ is_defined e "_WIN64" → o = ["get_environment_variable"; "set_environment_variable"]) ∧
  (¬ is_defined e "__linux__" ∨ is_defined e "_WIN32" ∨ is_defined e "_WIN64" → o = []).
Proof.
  intros attrs e F. destruct (platform_flags attrs e F) as (e' & Hp & Hl & (w & Hw & Ew) & _ & (x & Hx & Ex) & _).
  unfold preprocess, platform. rewrite run_app. unfold preprocess in Hp. rewrite Hp.
  assert (true = true) by reflexivity; assert (false ≠ true) by discriminate.
  cbn [mbind option_bind run seq run1]. rewrite (id_value _ _ _ _ Hw), (id_value _ _ _ _ Hx). cbn [mbind option_bind].
  destruct w; [|destruct x]; (do 2 eexists; split; [reflexivity|]); clear - Ew Ex; (split; [intros L W1 W2|intros H]); try reflexivity;
    exfalso; intuition congruence.
Qed.
Theorem environment_platform_refuted : Forall (λ target, ∃ attrs e', preprocess attrs platform (<[target := Num 1]> ∅) = Some (e', []))
  ["_WIN32"; "__APPLE__"].
Proof. rewrite !Forall_cons, Forall_nil. repeat split; exists (λ _, true); eexists; vm_compute; reflexivity. Qed.

(** ** Language version *)
(** __cplusplus and __cpp_constexpr are numbers, as the standard requires. *)
Lemma ge_value attrs (e : macros) m z k : e !! m = Some (Num z) → value attrs e (Ge (Id m) (Lit k)) = Some (if decide (z >= k) then 1 else 0).
Proof. intros H. simpl. by rewrite H. Qed.
Lemma run_cons attrs n l ls e e1 e2 o o' : run1 attrs (run attrs n) l e = Some (e1, o) → run attrs (S n) ls e1 = Some (e2, o') →
  run attrs (S n) (l :: ls) e = Some (e2, app o o').
Proof. intros H1 H2. cbn [run seq]. rewrite H1. cbn [mbind option_bind]. cbn [run] in H2. rewrite H2. done. Qed.
Theorem setup_macros : ∀ attrs e std ce, fresh e → e !! "__cplusplus" = Some (Num std) → e !! "__cpp_constexpr" = Some (Num ce) →
  ∃ e', preprocess attrs setup e = Some (e', []) ∧ leaves e e' ∧
  (is_defined e' "XME_CPP23" ↔ 202302 <= std) ∧ (is_defined e' "XME_CPP20" ↔ 202002 <= std < 202302) ∧
  e' !! "XME_CONSTEXPR" = Some (Text "constexpr") ∧
  (202002 <= ce → e' !! "XME_CONSTEXPR20" = Some (Text "constexpr")) ∧ (ce < 202002 → e' !! "XME_CONSTEXPR20" = Some Empty) ∧
  let forced := is_defined e "__clang__" ∧ attrs "always_inline" = true ∨ ¬ is_defined e "__clang__" ∧ is_defined e "__GNUC__" in
  (forced → e' !! "XME_INLINE" = Some (Text "__attribute__((always_inline)) __inline__")) ∧ (¬ forced → e' !! "XME_INLINE" = Some (Text "inline")).
Proof.
  intros attrs e std ce F Hs Hc. unfold preprocess, setup.
  (* the three conditionals in turn *)
  assert (L1 : ∃ e1, run1 attrs (run attrs 4) (nth 0 setup (Other "")) e = Some (e1, []) ∧ leaves e e1 ∧
    (∀ m, m ∈ own → m ≠ "XME_CPP23" → m ≠ "XME_CPP20" → e1 !! m = None) ∧
    (is_defined e1 "XME_CPP23" ↔ 202302 <= std) ∧ (is_defined e1 "XME_CPP20" ↔ 202002 <= std < 202302)).
  { cbn [nth setup]. cbn [run1]. rewrite (ge_value _ _ _ std) by done. cbn [mbind option_bind].
    destruct (decide (std >= 202302)).
    - go F. done_. split; [intros m Hm N1 N2; rewrite lookup_insert_ne by done; by apply F|]. unfold is_defined. known F. split; split; eauto; try lia.
      intros [? ?]; discriminate.
    - go F. rewrite (ge_value _ _ _ std) by done. cbn [mbind option_bind]. destruct (decide (std >= 202002)); go F; done_.
      + split; [intros m Hm N1 N2; rewrite lookup_insert_ne by done; by apply F|]. unfold is_defined. known F. split; split; eauto; try lia.
        intros [? ?]; discriminate.
      + split; [intros; by apply F|]. unfold is_defined. known F. split; split; try lia; intros [? ?]; discriminate. }
  destruct L1 as (e1 & R1 & V1 & F1 & P1 & P2).
  assert (Hc1 : e1 !! "__cpp_constexpr" = Some (Num ce)) by (rewrite V1; [exact Hc|]; apply (bool_decide_unpack _); vm_compute; exact I).
  assert (L2 : ∃ e2, run1 attrs (run attrs 4) (nth 1 setup (Other "")) e1 = Some (e2, []) ∧
    (∀ m, m ≠ "XME_CONSTEXPR" → m ≠ "XME_CONSTEXPR20" → e2 !! m = e1 !! m) ∧ e2 !! "XME_CONSTEXPR" = Some (Text "constexpr") ∧
    (202002 <= ce → e2 !! "XME_CONSTEXPR20" = Some (Text "constexpr")) ∧ (ce < 202002 → e2 !! "XME_CONSTEXPR20" = Some Empty)).
  { cbn [nth setup]. cbn [run1]. cbn [value]. rewrite Hc1. cbn [mbind option_bind]. rewrite decide_False by done.
    cbn [run seq run1]. cbn [run1]. rewrite (F1 "XME_CONSTEXPR") by (done || is_own). cbn [mbind option_bind]. cbn [run1].
    rewrite (ge_value _ _ _ ce) by (rewrite lookup_insert_ne by done; exact Hc1). cbn [mbind option_bind].
    destruct (decide (ce >= 202002)).
    - rewrite decide_False by done. cbn [run seq run1]. cbn [run1]. rewrite lookup_insert_ne, (F1 "XME_CONSTEXPR20") by (done || is_own). cbn.
      eexists. split; [reflexivity|]. split; [intros m N1 N2; by rewrite !lookup_insert_ne by done|]. known F. split; [done|]. split; [done|lia].
    - rewrite decide_True by done. cbn [run seq run1]. cbn [run1]. rewrite lookup_insert_ne, (F1 "XME_CONSTEXPR20") by (done || is_own). cbn.
      eexists. split; [reflexivity|]. split; [intros m N1 N2; by rewrite !lookup_insert_ne by done|]. known F. split; [done|]. split; [lia|done]. }
  destruct L2 as (e2 & R2 & V2 & P3 & P4 & P5).
  assert (Fi : e2 !! "XME_INLINE" = None) by (rewrite V2, F1 by (done || is_own); done).
  assert (D2 : ∀ m, m ∉ own → e2 !! m = e !! m).
  { intros m Hm. rewrite V2; [by apply V1|intros ->; apply Hm; is_own|intros ->; apply Hm; is_own]. }
  assert (L3 : ∃ e3, run1 attrs (run attrs 4) (nth 2 setup (Other "")) e2 = Some (e3, []) ∧ (∀ m, m ≠ "XME_INLINE" → e3 !! m = e2 !! m) ∧
    let forced := is_defined e "__clang__" ∧ attrs "always_inline" = true ∨ ¬ is_defined e "__clang__" ∧ is_defined e "__GNUC__" in
    (forced → e3 !! "XME_INLINE" = Some (Text "__attribute__((always_inline)) __inline__")) ∧ (¬ forced → e3 !! "XME_INLINE" = Some (Text "inline"))).
  { cbn [nth setup]. cbn [run1]. cbn [value]. rewrite (D2 "__clang__") by (apply (bool_decide_unpack _); vm_compute; exact I).
    unfold is_defined. destruct (e !! "__clang__") eqn:Ec; cbn [mbind option_bind].
    - rewrite decide_False by done. cbn [run seq run1]. cbn [run1]. cbn [value mbind option_bind].
      destruct (attrs "always_inline"); [rewrite decide_False by done|rewrite decide_True by done]; cbn [run seq run1]; cbn [run1]; rewrite Fi; cbn;
        (eexists; split; [reflexivity|]; split; [intros m Hm; by rewrite lookup_insert_ne by done|]); known F; split; try done; intros H; exfalso.
      + apply H. left. split; eauto.
      + destruct H as [[_ ?]|[H _]]; [done|]. apply H. eauto.
    - rewrite decide_True by done. cbn [run seq run1]. cbn [run1]. cbn [value]. rewrite (D2 "__GNUC__") by (apply (bool_decide_unpack _); vm_compute; exact I).
      assert (Hn : ¬ is_Some (@None body)) by (by intros [? ?]).
      destruct (e !! "__GNUC__") eqn:Eg; cbn [mbind option_bind].
      + rewrite decide_False by done. cbn [run seq run1]; cbn [run1]; rewrite Fi; cbn;
        (eexists; split; [reflexivity|]; split; [intros m Hm; by rewrite lookup_insert_ne by done|]). known F. split; [done|]. intros H; exfalso.
        apply H. right. split; eauto.
      + rewrite decide_True by done. cbn [run seq run1]. cbn [run1]. cbn [value].
        rewrite Fi. destruct (e2 !! "_MSC_VER"); cbn;
        (eexists; split; [reflexivity|]; split; [intros m Hm; by rewrite lookup_insert_ne by done|]); known F; (split; [|done]); intros [[H _]|[_ H]]; done. }
  destruct L3 as (e3 & R3 & V3 & P6). exists e3. split; [|split; [|split; [|split; [|split; [|split; [|split]]]]]].
  - apply (run_cons attrs 4 _ _ e e1 e3 [] [] R1). apply (run_cons attrs 4 _ _ e1 e2 e3 [] [] R2). apply (run_cons attrs 4 _ _ e2 e3 e3 [] [] R3). done.
  - intros m Hm. rewrite V3; [by apply D2|]. intros ->. apply Hm. is_own.
  - unfold is_defined. rewrite V3, V2 by done. exact P1.
  - unfold is_defined. rewrite V3, V2 by done. exact P2.
  - rewrite V3 by done. exact P3.
  - rewrite V3 by done. exact P4.
  - rewrite V3 by done. exact P5.
  - exact P6.
Qed.

Example fresh_ex : fresh (<["__x86_64__" := Num 1]> (<["__GNUC__" := Num 13]> (<["__linux__" := Num 1]> ∅))).
Proof. intros m Hm. rewrite !lookup_insert_ne; [apply lookup_empty|..]; intros <-; revert Hm; apply (bool_decide_unpack _); vm_compute; exact I. Qed.
Definition gcc_linux : macros := <["__x86_64__" := Num 1]> (<["__GNUC__" := Num 13]> (<["__linux__" := Num 1]> (<["__GLIBCXX__" := Num 2023]>
  (<["__cplusplus" := Num 202302]> {["__cpp_constexpr" := Num 202211]})))).
Example architecture_macros_ex : (λ r, r.1 !! "XME_ARCH_X86") <$> preprocess (λ _, true) architecture gcc_linux = Some (Some (Num 1)). Proof. vm_compute. done. Qed.
Example compiler_macros_ex : (λ r, r.1 !! "XME_COMPILER_GCC") <$> preprocess (λ _, true) compiler gcc_linux = Some (Some Empty). Proof. vm_compute. done. Qed.
Example std_library_partial_ex : (λ r, r.1 !! "XME_LIBSTD_GCC") <$> preprocess (λ _, true) std_library gcc_linux = Some (Some Empty). Proof. vm_compute. done. Qed.
Example platform_flags_ex : (λ r, (r.1 !! "XME_PLATFORM_LINUX", r.1 !! "XME_PLATFORM_APPLE")) <$> preprocess (λ _, true) platform_macros gcc_linux = Some (Some (Num 1), Some (Num 0)).
Proof. vm_compute. done. Qed.
Example platform_export_partial_ex : (λ r, r.1 !! "DLLEXPORT") <$> preprocess (λ _, true) platform_macros {["_WIN32" := Num 1]} = Some (Some (Text "__declspec(dllexport)")).
Proof. vm_compute. done. Qed.
Example shared_library_platform_partial_ex : snd <$> preprocess (λ _, true) shared_library gcc_linux = Some complete. Proof. vm_compute. done. Qed.
Example environment_platform_partial_ex : snd <$> preprocess (λ _, true) platform gcc_linux = Some ["get_environment_variable"; "set_environment_variable"].
Proof. vm_compute. done. Qed.
Example setup_macros_ex : (λ r, (r.1 !! "XME_CPP23", r.1 !! "XME_CPP20", r.1 !! "XME_CONSTEXPR20")) <$> preprocess (λ _, true) setup gcc_linux =
  Some (Some Empty, None, Some (Text "constexpr")).
Proof. vm_compute. done. Qed.

Definition detect_theorems := (@architecture_macros, @architecture_arm_refuted, @compiler_macros, @std_library_partial, @std_library_refuted,
  @platform_flags, @platform_export_partial, @platform_export_refuted, @shared_library_platform_partial, @shared_library_platform_refuted,
  @environment_platform_partial, @environment_platform_refuted, @setup_macros).
Print Assumptions detect_theorems.
