(** What README.md 586-600 and the comment in simd.h 86-93 promise about the precondition checks. *)
From Coq Require Import String Ascii DecimalString.
From Verif Require Import Base PreModel.
#[local] Open Scope string_scope.
#[local] Open Scope Z_scope.

(** README.md 587: VIR_CHECK_PRECONDITIONS defaults to 3. *)
Definition documented_level (given : option Z) : Z := match given with Some l => l | None => 3 end.

Definition level_valid (given : option Z) : Prop := 0 <= documented_level given <= 5.

(** The columns of the table, README.md 593-600 *)
Inductive diagnosis := DWarning | DError.
Definition documented_diagnosis (l : Z) : option diagnosis :=
  match l with
  | 0 => Some DWarning | 1 => Some DError | 2 => Some DWarning
  | 3 => Some DError | 4 => Some DWarning | 5 => Some DError
  | _ => None
  end.
Inductive action := AUndefined | ATrap | APrintAbort.
Definition documented_action (l : Z) : option action :=
  match l with
  | 0 => Some AUndefined | 1 => Some AUndefined | 2 => Some ATrap
  | 3 => Some ATrap | 4 => Some APrintAbort | 5 => Some APrintAbort
  | _ => None
  end.

(** A text without a % *)
Fixpoint percent_free (s : string) : Prop :=
  match s with
  | EmptyString => True
  | String c r => c <> "%"%char /\ percent_free r
  end.

(** Decimal notation of the standard library *)
Definition decimal (z : Z) : string := NilZero.string_of_int (Z.to_int z).

(** The error message: location, function, explanation, expression. *)
Definition error_text (file : string) (line : Z) (func explanation expr : string) : string :=
  file ++ ":" ++ decimal line ++ ": precondition failure in '" ++ func ++ "': " ++ explanation
    ++ " ('" ++ expr ++ "' does not hold)" ++ String (ascii_of_nat 10) "".

(** The explanations with the values in place *)
Definition subscript_text (n i : Z) : string :=
  "Subscript " ++ decimal i ++ " is out of range [0, " ++ decimal (n - 1) ++ "]".
Definition matching_text (distance w : Z) : string :=
  "The explicit assumption, that the range size (" ++ decimal distance
    ++ ") is a multiple of the SIMD width (" ++ decimal w ++ "), does not hold.".

(** The documented action happens. Undefined behaviour includes every effect. *)
Definition acts (e : effect) (a : action) (text : string) : Prop :=
  match a with
  | AUndefined => True
  | ATrap => e = ETrap
  | APrintAbort => e = EPrintAbort text
  end.

(** The documented diagnosis is issued: no program, or one with a warning. *)
Definition shows (o : outcome) (d : diagnosis) : Prop :=
  match d with
  | DError => o = Rejected
  | DWarning => exists e, o = Runs true e
  end.
