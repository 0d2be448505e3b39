(** Property theorems C27 to C29 (the _cw literal suffix). *)
From Verif Require Import Base CwModel CwSpec CwProofs.
From Coq Require Import Ascii String.

(** C27.  An accepted literal has the value C++ gives it. *)
Theorem C27_cw_value :
  forall ws s v ty x, widths_ok ws -> literal s v -> cw_parse ws s = Ok (ty, x) -> x = v.
Proof. exact cw_value. Qed.
Print Assumptions C27_cw_value.

Example C27_instance :
  literal (chars "0x1'F") 31 /\ cw_parse lp64 (chars "0x1'F") = Ok (TSChar, 31)
  /\ literal (chars "0777") 511 /\ cw_parse lp64 (chars "0777") = Ok (TShort, 511)
  /\ literal (chars "1'000") 1000 /\ cw_parse lp64 (chars "1'000") = Ok (TShort, 1000)
  /\ widths_ok lp64.
Proof.
  split; [apply (lit_hex "x" _ [1; 15]); [now left|];
          apply digits_sep; [reflexivity|]; apply digits_one; reflexivity|].
  split; [reflexivity|].
  split; [apply (lit_octal _ [7; 7; 7]); do 3 (apply digits_cons; [reflexivity|]); apply digits_one; reflexivity|].
  split; [reflexivity|].
  split; [apply (lit_decimal _ 1 [0; 0; 0]); [|discriminate]; apply digits_sep; [reflexivity|];
          do 2 (apply digits_cons; [reflexivity|]); apply digits_one; reflexivity|].
  split; [reflexivity|]. unfold widths_ok. cbn. lia.
Qed.

(** C28.  Partial: literals with prefix 0B, and zero written with more than one digit, are not
    accepted (refuted below); everything else that fits is. *)
Theorem C28_cw_accepts_partial :
  forall ws s v, widths_ok ws -> literal s v -> v < 2 ^ w_llong ws -> ~ upper_binary s ->
    (v <> 0 \/ s = ["0"%char]) -> exists ty, cw_parse ws s = Ok (ty, v).
Proof. exact cw_accepts. Qed.
Print Assumptions C28_cw_accepts_partial.

(** Exactly those are accepted. *)
Theorem C28_cw_accepted_iff :
  forall ws s v, widths_ok ws -> literal s v ->
    ((exists ty, cw_parse ws s = Ok (ty, v)) <->
     v < 2 ^ w_llong ws /\ ~ upper_binary s /\ (v <> 0 \/ s = ["0"%char])).
Proof. exact cw_accepted_iff. Qed.
Print Assumptions C28_cw_accepted_iff.

(** Literals that do not fit are rejected at compile time. *)
Theorem C28_cw_rejects_large :
  forall ws s v, widths_ok ws -> literal s v -> 2 ^ w_llong ws <= v -> cw_parse ws s = Stop SIllFormed.
Proof. exact cw_rejects_large. Qed.
Print Assumptions C28_cw_rejects_large.

Example C28_instance :
  cw_parse lp64 (chars "18446744073709551615") = Ok (TULongLong, 18446744073709551615)
  /\ cw_parse lp64 (chars "18446744073709551616") = Stop SIllFormed
  /\ cw_parse lp64 (chars "0xffff'ffff'ffff'ffff0") = Stop SIllFormed
  /\ cw_parse lp64 (chars "0b1011") = Ok (TSChar, 11) /\ cw_parse lp64 (chars "0") = Ok (TSChar, 0)
  /\ cw_parse lp64 (chars "07") = Ok (TSChar, 7).
Proof. repeat split; reflexivity. Qed.

(** Finding: 0x0_cw is ill-formed ("value out of range") although 0x0 is the integer 0. *)
Theorem C28_zero_refuted :
  exists s, literal s 0 /\ cw_parse lp64 s = Stop SIllFormed.
Proof.
  exact (ex_intro _ (chars "0x0")
    (conj (lit_hex "x" _ [0] (or_introl eq_refl) (digits_one 16 "0" 0 eq_refl)) eq_refl)).
Qed.
Print Assumptions C28_zero_refuted.

(** Finding: 0B1_cw is ill-formed although 0B is a binary prefix. *)
Theorem C28_upper_binary_refuted :
  exists s, literal s 1 /\ cw_parse lp64 s = Stop SIllFormed.
Proof.
  exact (ex_intro _ (chars "0B1")
    (conj (lit_binary "B" _ [1] (or_intror eq_refl) (digits_one 2 "1" 1 eq_refl)) eq_refl)).
Qed.
Print Assumptions C28_upper_binary_refuted.

(** C29.  The type represents the value, and no preferred type does. *)
Theorem C29_cw_smallest_type :
  forall ws s v ty x, widths_ok ws -> literal s v -> cw_parse ws s = Ok (ty, x) ->
    represents ws ty x /\ forall t, rank t < rank ty -> ~ represents ws t x.
Proof. exact cw_smallest_type. Qed.
Print Assumptions C29_cw_smallest_type.

Example C29_instance :
  cw_parse lp64 (chars "127") = Ok (TSChar, 127) /\ cw_parse lp64 (chars "128") = Ok (TShort, 128)
  /\ cw_parse lp64 (chars "2147483648") = Ok (TLong, 2147483648)
  /\ represents lp64 TShort 128 /\ ~ represents lp64 TSChar 128.
Proof. repeat split; try reflexivity; cbn; lia. Qed.
