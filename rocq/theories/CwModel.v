(** constexpr_wrapper.h: the parser of the _cw literal suffix (378-458). *)
From Verif Require Import Base.
From Coq Require Import Ascii.

(** The value of a character, as a char (ASCII). *)
Definition code (c : ascii) : Z := Z.of_N (N_of_ascii c).

Definition ch (c : ascii) (x : ascii) : bool := (code c =? code x).
Definition between (lo hi c : ascii) : bool := (code lo <=? code c) && (code c <=? code hi).

(** cw_prepare_array, 380-391: drop the digit separators. *)
Definition cw_prepare (s : list ascii) : list ascii := filter (fun c => negb (ch "'" c)) s.

(** arr[i]; the callers only read existing elements, except arr[0] of an empty array, which cannot
    come from a literal. *)
Definition char_at (arr : list ascii) (i : nat) (x : ascii) : bool :=
  match nth_error arr i with Some c => ch x c | None => false end.

(** base, 398-401. *)
Definition cw_base (arr : list ascii) : Z :=
  if char_at arr 0 "0" && (2 <? Z.of_nat (length arr))
  then if char_at arr 1 "x" || char_at arr 1 "X" then 16 else if char_at arr 1 "b" then 2 else 8
  else 10.

(** offset, 402. *)
Definition cw_offset (base : Z) : nat := if base =? 10 then 0%nat else if base =? 8 then 1%nat else 2%nat.

(** The valid_chars lambda, 403-409. *)
Definition cw_valid_char (base : Z) (c : ascii) : bool :=
  if base =? 16 then between "a" "f" c || between "A" "F" c || between "0" "9" c
  else (code "0" <=? code c) && (code c <? code "0" + base).

(** nextdigit, 427-434. *)
Definition cw_digit (base : Z) (c : ascii) : Z :=
  if base =? 16 then
    if code "a" <=? code c then code c - code "a" + 10
    else if code "A" <=? code c then code c - code "A" + 10
    else code c - code "0"
  else code c - code "0".

(** The accumulation loop, 421-443; [maxv] is the maximum of unsigned long long; an early return
    yields 0. *)
Fixpoint cw_accum (maxv base : Z) (cs : list ascii) (x : Z) : Z :=
  match cs with
  | [] => x
  | c :: cs' =>
    if maxv / base <? x then 0
    else let x := x * base in
         if maxv - cw_digit base c <? x then 0
         else cw_accum maxv base cs' (x + cw_digit base c)
  end.

Inductive cwtype := TSChar | TShort | TInt | TLong | TLongLong | TULongLong.

(** Bit widths of the standard integer types. *)
Record widths := mkwidths { w_schar : Z; w_short : Z; w_int : Z; w_long : Z; w_llong : Z }.

Definition signed_max (w : Z) : Z := 2 ^ (w - 1) - 1.

(** The result type, 445-456. *)
Definition cw_type (ws : widths) (x : Z) : cwtype :=
  if x <=? signed_max (w_schar ws) then TSChar
  else if x <=? signed_max (w_short ws) then TShort
  else if x <=? signed_max (w_int ws) then TInt
  else if x <=? signed_max (w_long ws) then TLong
  else if x <=? signed_max (w_llong ws) then TLongLong
  else TULongLong.

(** cw_parse, 393-458: type and value, or a failed static_assert. *)
Definition cw_parse (ws : widths) (s : list ascii) : res (cwtype * Z) :=
  let arr := cw_prepare s in
  let base := cw_base arr in
  let digits := skipn (cw_offset base) arr in
  if negb (forallb (cw_valid_char base) digits) then Stop SIllFormed
  else match arr with
       | [c] => if ch "0" c then Ok (TSChar, 0) else if ch "1" c then Ok (TSChar, 1)
                else if ch "2" c then Ok (TSChar, 2)
                else let x := cw_accum (2 ^ w_llong ws - 1) base digits 0 in
                     if x =? 0 then Stop SIllFormed else Ok (cw_type ws x, x)
       | _ => let x := cw_accum (2 ^ w_llong ws - 1) base digits 0 in
              if x =? 0 then Stop SIllFormed else Ok (cw_type ws x, x)
       end.
