(** C++ integer literals without suffix ([lex.icon]): grammar and value. *)
From Verif Require Import Base.
From Coq Require Import Ascii.

Definition dec_digit (c : ascii) : option Z :=
  match c with
  | "0" => Some 0 | "1" => Some 1 | "2" => Some 2 | "3" => Some 3 | "4" => Some 4
  | "5" => Some 5 | "6" => Some 6 | "7" => Some 7 | "8" => Some 8 | "9" => Some 9
  | _ => None
  end%char.

Definition hex_digit (c : ascii) : option Z :=
  match c with
  | "a" | "A" => Some 10 | "b" | "B" => Some 11 | "c" | "C" => Some 12
  | "d" | "D" => Some 13 | "e" | "E" => Some 14 | "f" | "F" => Some 15
  | _ => dec_digit c
  end%char.

(** The digit [c] in a number of this base. *)
Definition digit (base : Z) (c : ascii) : option Z :=
  match hex_digit c with Some d => if d <? base then Some d else None | None => None end.

(** Non-empty digit sequences with single separators between digits. *)
Inductive digits (base : Z) : list ascii -> list Z -> Prop :=
| digits_one c d : digit base c = Some d -> digits base [c] [d]
| digits_cons c d s ds : digit base c = Some d -> digits base s ds -> digits base (c :: s) (d :: ds)
| digits_sep c d s ds : digit base c = Some d -> digits base s ds ->
    digits base (c :: "'"%char :: s) (d :: ds).

(** Positional value, most significant digit first. *)
Fixpoint positional (base : Z) (ds : list Z) : Z :=
  match ds with [] => 0 | d :: ds' => d * base ^ Z.of_nat (length ds') + positional base ds' end.

Inductive literal : list ascii -> Z -> Prop :=
| lit_decimal s d ds : digits 10 s (d :: ds) -> d <> 0 -> literal s (positional 10 (d :: ds))
| lit_octal s ds : digits 8 s (0 :: ds) -> literal s (positional 8 ds)
| lit_hex x s ds : x = "x"%char \/ x = "X"%char -> digits 16 s ds ->
    literal ("0"%char :: x :: s) (positional 16 ds)
| lit_binary b s ds : b = "b"%char \/ b = "B"%char -> digits 2 s ds ->
    literal ("0"%char :: b :: s) (positional 2 ds).

(** Spelled with the prefix 0B. *)
Definition upper_binary (s : list ascii) : Prop := exists t, s = "0"%char :: "B"%char :: t.
