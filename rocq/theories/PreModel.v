(** simd.h 40-175: the precondition checks of the library, vir_simd_precondition and
    vir_simd_precondition_vaargs, for every way the header can be compiled; and the fprintf call behind
    them. *)
From Coq Require Export String Ascii.
From Coq Require Import DecimalString.
From Verif Require Import Base.
#[local] Open Scope string_scope.
#[local] Open Scope Z_scope.

(** ** The preprocessor's view of a translation unit *)

(** What simd.h depends on: the value of VIR_CHECK_PRECONDITIONS given by the user ([None]: not
    defined before simd.h is included), the value of __GNUC__ ([None]: not defined), whether __clang__
    is defined, and whether std::fprintf and stderr are declared before line 64 of simd.h (by the user
    or through experimental/simd; simd.h itself only includes simd_version.h and cstdlib before that
    line, 19-26). *)
Record build := mkbuild {
  b_level : option Z;
  b_gnuc : option Z;
  b_clang : bool;
  b_stdio : bool
}.

(** An identifier that is not defined as a macro counts as 0 in #if. *)
Definition pp_value (o : option Z) : Z := match o with Some v => v | None => 0 end.
Definition pp_defined (o : option Z) : bool := match o with Some _ => true | None => false end.

(** VIR_CHECK_PRECONDITIONS as seen by lines 69 and 71, in front of the default of line 96 *)
Definition level_early (b : build) : Z := pp_value (b_level b).

(** VIR_CHECK_PRECONDITIONS as seen by line 99 and below: 95-97 *)
Definition level_late (b : build) : Z := match b_level b with Some v => v | None => 3 end.

(** ** fprintf *)

(** An argument of fprintf: const char*, std::size_t, int *)
Inductive pval := PStr (s : string) | PSize (n : Z) | PInt (z : Z).

(** What a call of fprintf does: write a text, or have undefined behaviour because the arguments do
    not fit the format (C17 7.21.6.1p2 and p9). [POutside] marks conversions that are not modelled. *)
Inductive printed := PText (s : string) | PUndefined | POutside.

Definition pcat (s : string) (p : printed) : printed :=
  match p with PText t => PText (s ++ t) | _ => p end.

(** Decimal notation *)
Definition dec (z : Z) : string := NilZero.string_of_int (Z.to_int z).

(** Position within a format: in ordinary text, behind a % (with the space flag seen or not), or behind
    a % and the length modifier z. *)
Inductive fmode := FText | FSpec (space : bool) | FLen.

Fixpoint fmt_go (md : fmode) (fmt : string) (args : list pval) : printed :=
  match md, fmt with
  | FText, EmptyString => PText ""
  | FText, String c r =>
    if Ascii.eqb c "%" then fmt_go (FSpec false) r args
    else pcat (String c EmptyString) (fmt_go FText r args)
  | FSpec _, EmptyString => PUndefined
  | FSpec sp, String c r =>
    if Ascii.eqb c " " then fmt_go (FSpec true) r args
    else if Ascii.eqb c "%" then if sp then PUndefined else pcat "%" (fmt_go FText r args)
    else if Ascii.eqb c "s" then
      match args with PStr s :: args' => pcat s (fmt_go FText r args') | _ => PUndefined end
    else if Ascii.eqb c "d" then
      match args with
      | PInt z :: args' =>
        pcat (if sp && (0 <=? z) then " " ++ dec z else dec z) (fmt_go FText r args')
      | _ => PUndefined
      end
    else if Ascii.eqb c "z" then fmt_go FLen r args
    else POutside
  | FLen, EmptyString => PUndefined
  | FLen, String c r =>
    if Ascii.eqb c "u" then
      match args with PSize n :: args' => pcat (dec n) (fmt_go FText r args') | _ => PUndefined end
    else POutside
  end.

Definition printf (fmt : string) (args : list pval) : printed := fmt_go FText fmt args.

(** ** The handlers *)

(** What happens when a check is reached at run time *)
Inductive effect :=
| EContinue
| EUndefined
| ETrap
| EAbort
| EPrintAbort (text : string)
| EOutside.

(** 42-52: every variant (__builtin_unreachable, [[assume(false)]], __assume) is undefined when
    reached. *)
Definition unreachable (_ : build) : effect := EUndefined.

(** 54-62 *)
Definition trap (b : build) : effect := if pp_defined (b_gnuc b) then ETrap else EAbort.

(** 64-79 *)
Definition invoke_ub (b : build) (msg : string) (args : list pval) : effect :=
  if level_early b <? 2 then unreachable b
  else if pp_defined (b_gnuc b) && (level_early b <? 4) then ETrap
  else match printf msg args with
       | PText t => EPrintAbort t
       | PUndefined => EUndefined
       | POutside => EOutside
       end.

(** Line 75 names std::fprintf and stderr; they are looked up where the template is defined. *)
Definition header_ok (b : build) : bool :=
  if level_early b <? 2 then true
  else if pp_defined (b_gnuc b) && (level_early b <? 4) then true
  else b_stdio b.

(** ** The macros *)

(** One use of a macro: where it is (__FILE__, __LINE__), in which function (VIR_PRETTY_FUNCTION_), the
    spelling of the expression (#expr), msg and __VA_ARGS__ (none for vir_simd_precondition). *)
Record check := mkcheck {
  k_file : string;
  k_line : Z;
  k_func : string;
  k_expr : string;
  k_msg : string;
  k_args : list pval
}.

Definition newline : string := String (ascii_of_nat 10) EmptyString.

(** 84: VIR_SIMD_LOC *)
Definition simd_loc (k : check) : string := k_file k ++ ":" ++ dec (k_line k) ++ ": ".

(** 136, 150, 161, 171: the format; 137, 151, 162, 172: its arguments *)
Definition check_format (k : check) : string :=
  simd_loc k ++ "precondition failure in '%s': " ++ k_msg k ++ " ('" ++ k_expr k
    ++ "' does not hold)" ++ newline.
Definition check_args (k : check) : list pval := PStr (k_func k) :: k_args k.

(** 116: compilers that get the compile-time diagnostics *)
Definition diagnosing (b : build) : bool := b_clang b || (10 <=? pp_value (b_gnuc b)).

(** The result of translating and running a check: no program, or a program (with a warning or
    without) and what it does at the check. *)
Inductive outcome := Rejected | Runs (warned : bool) (e : effect).

(** 109-175. [known]: __builtin_constant_p(precondition_result), i.e. the optimiser has computed the
    condition; then the call of a function with the attribute error or warning remains in the program
    exactly if the condition is false (117-121, 130-133). *)
Definition run_check (b : build) (known cond : bool) (k : check) : outcome :=
  if negb (header_ok b) then Rejected
  else if level_late b <? 0 then Runs false EContinue
  else if diagnosing b then
    if known && negb cond then
      if Z.land (level_late b) 1 =? 1 then Rejected else Runs true (trap b)
    else if negb cond then Runs false (invoke_ub b (check_format k) (check_args k))
    else Runs false EContinue
  else if negb cond then Runs false (invoke_ub b (check_format k) (check_args k))
  else Runs false EContinue.

(** In constant evaluation a failing check calls a function that is not constexpr (trap, 54-55, or
    invoke_ub, 64-66): the expression is not constant. *)
Definition consteval_check (b : build) (cond : bool) : outcome :=
  if negb (header_ok b) then Rejected
  else if level_late b <? 0 then Runs false EContinue
  else if cond then Runs false EContinue
  else Rejected.

(** ** The uses *)

(** operator[] of simd_mask and simd: simd.h 687, 695, 840, 848, 1301, 1309, 1630, 1638. [n] is
    size(). *)
Definition subscript_check (file : string) (line : Z) (func : string) (n i : Z) : check :=
  mkcheck file line func "i < size()" "Subscript %zu is out of range [0, %zu]" [PSize i; PSize (n - 1)].

(** simd.h 983 and 1058, 991 and 1071; the expression is k[0] for scalar masks and any_of(k) otherwise *)
Definition empty_check (file : string) (line : Z) (func : string) (scalar first : bool) : check :=
  mkcheck file line func (if scalar then "k[0]" else "any_of(k)")
    (if first then "find_first_set(empty mask) is UB" else "find_last_set(empty mask) is UB") [].

(** simd_execution.h 735-737, 965-967, 1126-1128: std::size_t distance, and the width as int (in
    transform through the call operator of the wrapper, constexpr_wrapper.h 336-339) *)
Definition matching_check (file : string) (line : Z) (func : string) (distance w : Z) : check :=
  mkcheck file line func "distance % size == 0"
    ("The explicit assumption, that the range size (%zu) is a multiple"
       ++ " of the SIMD width (%d), does not hold.")
    [PSize distance; PInt w].
