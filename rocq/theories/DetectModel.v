(** The preprocessor directives of the detection headers:
    /repo/include/xme/hal/architecture_detection.hpp, compiler_detection.hpp,
    std_detection.hpp, platform_macros.hpp with linux/platform_macros.hpp and
    windows/platform_macros.hpp, platform.hpp, shared_library.hpp, and
    /repo/include/xme/setup.hpp.

    A header is the list of its directives and of the other lines that matter; [run]
    preprocesses it. Simplifications: a macro's replacement is a number, nothing, or
    other text; [true] is the number 1 as in an #if; other lines are opaque strings. *)
From stdpp Require Import base gmap list strings.
From Coq Require Import ZArith.
Local Open Scope Z_scope.
Local Open Scope string_scope.

Inductive body := Empty | Num (z : Z) | Text (s : string).
#[export] Instance body_eq_dec : EqDecision body. Proof. solve_decision. Defined.
Notation macros := (gmap string body).
Inductive cond :=
  | Defined (m : string) | Id (m : string) | Lit (z : Z) | HasAttribute (a : string)
  | LOr (a b : cond) | BOr (a b : cond) | Ge (a b : cond).
Inductive line :=
  | Define (m : string) (b : body)
  | If (c : cond) (th el : list line)   (* #if c th #else el #endif; #elif is an If in [el] *)
  | Other (s : string).                 (* a line that is not a directive *)

(** The value of the condition; identifiers that are not macros are 0, and a macro that
    is not a number is a syntax error. [attrs] are the attributes the compiler has. *)
Fixpoint value (attrs : string → bool) (e : macros) (c : cond) : option Z :=
  match c with
  | Defined m => Some (match e !! m with Some _ => 1 | None => 0 end)
  | Id m => match e !! m with None => Some 0 | Some (Num z) => Some z | Some _ => None end
  | Lit z => Some z
  | HasAttribute a => Some (if attrs a then 1 else 0)
  | LOr a b => x ← value attrs e a; y ← value attrs e b; Some (if decide (x = 0 ∧ y = 0) then 0 else 1)
  | BOr a b => x ← value attrs e a; y ← value attrs e b; Some (Z.lor x y)
  | Ge a b => x ← value attrs e a; y ← value attrs e b; Some (if decide (x >= y) then 1 else 0)
  end.
(** A macro may be defined again only with the same replacement. The result is the
    macros and the other lines that remain; [None] is an ill-formed program. *)
Definition run1 (attrs : string → bool) (run : list line → macros → option (macros * list string)) (l : line) (e : macros)
    : option (macros * list string) :=
  match l with
  | Define m b => match e !! m with Some b' => if decide (b = b') then Some (e, []) else None | None => Some (<[m := b]> e, []) end
  | If c th el => v ← value attrs e c; if decide (v = 0) then run el e else run th e
  | Other s => Some (e, [s])
  end.
Fixpoint seq (step : line → macros → option (macros * list string)) (ls : list line) (e : macros) : option (macros * list string) :=
  match ls with
  | [] => Some (e, [])
  | l :: ls => '(e, o) ← step l e; '(e, o') ← seq step ls e; Some (e, app o o')
  end.
(** [n] bounds the nesting. *)
Fixpoint run (attrs : string → bool) (n : nat) (ls : list line) (e : macros) : option (macros * list string) :=
  match n with O => None | S n => seq (run1 attrs (run attrs n)) ls e end.
Definition preprocess (attrs : string → bool) (ls : list line) (e : macros) := run attrs 5 ls e.

(** architecture_detection.hpp:3-14 *)
Definition architecture : list line :=
  [If (LOr (LOr (LOr (Defined "__i386__") (Defined "__x86_64__")) (BOr (Defined "_M_IX86") (Defined "__amd64__"))) (Defined "_M_AMD64"))
     [Define "XME_ARCH_X86" (Num 1)] [Define "XME_ARCH_X86" (Num 0)];
   If (LOr (Defined "__arm__") (Defined "_M_ARM"))
     [Define "XME_ARCH_ARM" (Num 1)] [Define "XME_ARCH_ARM" (Num 0)]].
(** compiler_detection.hpp:3-7 *)
Definition compiler : list line :=
  [If (Defined "__clang__") [Define "XME_COMPILER_CLANG" Empty]
     [If (Defined "__GNUC__") [Define "XME_COMPILER_GCC" Empty] []]].
(** std_detection.hpp:3-7 *)
Definition std_library : list line :=
  [If (Defined "__LIBCPP_VERSION") [Define "XME_LIBSTD_CLANG" Empty]
     [If (Defined "__GLIBCXX__") [Define "XME_LIBSTD_GCC" Empty] []]].
(** windows/platform_macros.hpp:3-4, linux/platform_macros.hpp:3-4 *)
Definition windows_macros : list line :=
  [Define "DLLEXPORT" (Text "__declspec(dllexport)"); Define "DLLIMPORT" (Text "__declspec(dllimport)")].
Definition linux_macros : list line :=
  [Define "DLLEXPORT" (Text "__attribute__((visibility(""default"")))"); Define "DLLIMPORT" (Text "__attribute__((visibility(""default"")))")].
(** platform_macros.hpp:3-25 *)
Definition platform_macros : list line :=
  [If (LOr (Defined "_WIN32") (Defined "_WIN64")) [Define "XME_PLATFORM_WINDOWS" (Num 1)] [Define "XME_PLATFORM_WINDOWS" (Num 0)];
   If (Defined "__APPLE__") [Define "XME_PLATFORM_APPLE" (Num 1)] [Define "XME_PLATFORM_APPLE" (Num 0)];
   If (Defined "__linux__") [Define "XME_PLATFORM_LINUX" (Num 1)] [Define "XME_PLATFORM_LINUX" (Num 0)];
   If (Id "XME_PLATFORM_WINDOWS") windows_macros [If (Id "XME_PLATFORM_LINUX") linux_macros []]].
(** platform.hpp:4-8; the lines are the functions of windows/platform.hpp (none) and
    linux/platform.hpp *)
Definition platform : list line := app platform_macros
  [If (Id "XME_PLATFORM_WINDOWS") []
     [If (Id "XME_PLATFORM_LINUX") [Other "get_environment_variable"; Other "set_environment_variable"] []]].
(** shared_library.hpp:3-69: the parts that depend on the platform, and the uses of the
    member m_library in lines 17, 24, 31, 37 *)
Definition is_posix (th : list line) : line :=
  If (Id "XME_PLATFORM_WINDOWS") [] [If (LOr (Id "XME_PLATFORM_LINUX") (Id "XME_PLATFORM_MAC")) th []].
Definition shared_library : list line := app platform_macros
  [is_posix [Other "include dlfcn.h"]; Other "use m_library";
   is_posix [Other "open: dlopen"]; is_posix [Other "close: dlclose"]; is_posix [Other "proc_address: return dlsym"];
   is_posix [Other "declare m_library"]].
(** setup.hpp:3-30 *)
Definition setup : list line :=
  [If (Ge (Id "__cplusplus") (Lit 202302)) [Define "XME_CPP23" Empty]
     [If (Ge (Id "__cplusplus") (Lit 202002)) [Define "XME_CPP20" Empty] []];
   If (Defined "__cpp_constexpr")
     [Define "XME_CONSTEXPR" (Text "constexpr");
      If (Ge (Id "__cpp_constexpr") (Lit 202002)) [Define "XME_CONSTEXPR20" (Text "constexpr")] [Define "XME_CONSTEXPR20" Empty]] [];
   If (Defined "__clang__")
     [If (HasAttribute "always_inline") [Define "XME_INLINE" (Text "__attribute__((always_inline)) __inline__")] [Define "XME_INLINE" (Text "inline")]]
     [If (Defined "__GNUC__") [Define "XME_INLINE" (Text "__attribute__((always_inline)) __inline__")]
        [If (Defined "_MSC_VER") [Define "XME_INLINE" (Text "inline")] [Define "XME_INLINE" (Text "inline")]]]].
