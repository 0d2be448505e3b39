(** Facts about cw_parse. *)
From Verif Require Import Base BaseFacts CwModel CwSpec.
From Coq Require Import Ascii ZifyBool ZifyNat.
Ltac Zify.zify_post_hook ::= idtac.

Definition widths_ok (ws : widths) : Prop :=
  8 <= w_schar ws <= w_short ws /\ w_short ws <= w_int ws <= w_long ws /\ w_long ws <= w_llong ws
  /\ 64 <= w_llong ws.

Definition cw_base_ok (base : Z) : Prop := base = 2 \/ base = 8 \/ base = 10 \/ base = 16.

(** Per-character facts, by checking all 256 characters. *)
Lemma all_ascii (P : ascii -> bool) :
  forallb P (map ascii_of_nat (seq 0 256)) = true -> forall c, P c = true.
Proof.
  intros H c. rewrite forallb_forall in H. apply H. apply in_map_iff. exists (nat_of_ascii c). split.
  - apply ascii_nat_embedding.
  - apply in_seq. split; [apply Nat.le_0_l|]. apply nat_ascii_bounded.
Qed.

Definition digit_agree (base : Z) (c : ascii) : bool :=
  match digit base c with
  | Some d => cw_valid_char base c && (cw_digit base c =? d) && (0 <=? d) && (d <? base)
              && negb (ch "'" c) && (if d =? 0 then ch "0" c else negb (ch "0" c))
  | None => negb (cw_valid_char base c)
  end.

Lemma digit_agree_all base c : cw_base_ok base -> digit_agree base c = true.
Proof.
  intros [->|[->|[->| ->]]]; revert c; apply all_ascii; vm_compute; reflexivity.
Qed.

Lemma digit_facts base c d : cw_base_ok base -> digit base c = Some d ->
  cw_valid_char base c = true /\ cw_digit base c = d /\ 0 <= d < base /\ ch "'" c = false
  /\ (ch "0" c = true <-> d = 0).
Proof.
  intros Hb Hd. pose proof (digit_agree_all base c Hb) as H. unfold digit_agree in H. rewrite Hd in H.
  destruct (Z.eqb_spec d 0), (ch "0" c), (ch "'" c); repeat split; try lia; try discriminate;
    try (destruct (cw_valid_char base c); [reflexivity|discriminate]).
Qed.

Definition oct_not_prefix (c : ascii) : bool :=
  match digit 8 c with
  | Some d => negb (ch "x" c) && negb (ch "X" c) && negb (ch "b" c)
              && match digit 10 c with Some e => d =? e | None => false end
  | None => true end.
Lemma oct_facts c d : digit 8 c = Some d ->
  ch "x" c = false /\ ch "X" c = false /\ ch "b" c = false /\ digit 10 c = Some d.
Proof.
  intros Hd. assert (H : oct_not_prefix c = true) by (revert c Hd; intros c _; revert c; apply all_ascii; reflexivity).
  unfold oct_not_prefix in H. rewrite Hd in H.
  destruct (ch "x" c), (ch "X" c), (ch "b" c); try discriminate H. repeat split.
  destruct (digit 10 c) as [e|]; [|discriminate H]. cbn in H. apply Z.eqb_eq in H. now subst.
Qed.

Lemma ch_eq a c : ch a c = true -> c = a.
Proof.
  unfold ch, code. intros H. apply Z.eqb_eq in H. apply N2Z.inj in H.
  rewrite <- (ascii_N_embedding a), <- (ascii_N_embedding c). now rewrite H.
Qed.
Lemma ch_refl a : ch a a = true.
Proof. unfold ch. apply Z.eqb_refl. Qed.

Notation are_digits base := (Forall2 (fun c d => digit base c = Some d)).

Lemma digits_prepare base s ds : cw_base_ok base -> digits base s ds ->
  are_digits base (cw_prepare s) ds /\ ds <> [].
Proof.
  intros Hb. induction 1 as [c d H|c d s ds H Hs [IH _]|c d s ds H Hs [IH _]];
    destruct (digit_facts base c d Hb H) as (_ & _ & _ & Hsep & _); unfold cw_prepare in *; cbn [filter];
    rewrite Hsep; cbn [negb]; (split; [|discriminate]).
  - constructor; [assumption|constructor].
  - constructor; assumption.
  - rewrite ch_refl. cbn [negb]. constructor; assumption.
Qed.

Lemma are_digits_length base cs ds : are_digits base cs ds -> length cs = length ds.
Proof. induction 1; cbn; congruence. Qed.

Lemma are_digits_valid base cs ds : cw_base_ok base -> are_digits base cs ds ->
  forallb (cw_valid_char base) cs = true.
Proof.
  intros Hb. induction 1 as [|c d cs ds H _ IH]; [reflexivity|]. cbn [forallb].
  destruct (digit_facts base c d Hb H) as (-> & _). exact IH.
Qed.

Lemma positional_nonneg base cs ds : cw_base_ok base -> are_digits base cs ds -> 0 <= positional base ds.
Proof.
  intros Hb. induction 1 as [|c d cs ds H _ IH]; cbn [positional]; [lia|].
  destruct (digit_facts base c d Hb H) as (_ & _ & Hd & _).
  assert (0 <= base ^ Z.of_nat (length ds)) by (apply Z.pow_nonneg; unfold cw_base_ok in Hb; lia).
  clear - Hd H0 IH. nia.
Qed.

Lemma accum_spec maxv base : cw_base_ok base -> forall cs ds x, are_digits base cs ds -> 0 <= x <= maxv ->
  cw_accum maxv base cs x
  = let v := x * base ^ Z.of_nat (length ds) + positional base ds in if v <=? maxv then v else 0.
Proof.
  intros Hb cs ds x H. revert x. assert (Hpos : 0 < base) by (unfold cw_base_ok in Hb; lia).
  induction H as [|c d cs ds H Hs IH]; intros x Hx; cbn [cw_accum positional length].
  - cbv zeta. rewrite Z.pow_0_r. destruct (Z.leb_spec (x * 1 + 0) maxv); lia.
  - destruct (digit_facts base c d Hb H) as (_ & -> & Hd & _).
    pose proof (positional_nonneg base cs ds Hb Hs) as Hp.
    rewrite Nat2Z.inj_succ, Z.pow_succ_r by lia. set (p := base ^ Z.of_nat (length ds)) in *.
    assert (Hp1 : 1 <= p) by (assert (0 < p) by (apply Z.pow_pos_nonneg; lia); lia).
    replace (x * (base * p) + (d * p + positional base ds)) with ((x * base + d) * p + positional base ds)
      by (clear; nia).
    pose proof (Z.mul_div_le maxv base Hpos) as Hdl. pose proof (Z.mul_succ_div_gt maxv base Hpos) as Hdu.
    destruct (Z.ltb_spec (maxv / base) x) as [Hov|Hnov].
    + assert (maxv < x * base) by (clear - Hov Hdu Hpos; nia).
      cbv zeta. destruct (Z.leb_spec ((x * base + d) * p + positional base ds) maxv) as [Hle|]; [|reflexivity].
      exfalso. clear - H0 Hd Hp1 Hp Hle Hx. nia.
    + cbv zeta. destruct (Z.ltb_spec (maxv - d) (x * base)) as [Hov2|Hnov2].
      * destruct (Z.leb_spec ((x * base + d) * p + positional base ds) maxv) as [Hle|]; [|reflexivity].
        exfalso. clear - Hov2 Hp1 Hp Hle Hx Hd Hpos. nia.
      * rewrite IH; [reflexivity|]. clear - Hx Hpos Hd Hnov2. nia.
Qed.

(** Everything after the base has been determined. *)
Lemma cw_type_first (ws : widths) x : widths_ok ws -> 0 <= x <= 2 -> cw_type ws x = TSChar.
Proof.
  intros (Hw & _) Hx. unfold cw_type, signed_max.
  assert (2 ^ 7 <= 2 ^ (w_schar ws - 1)) by (apply Z.pow_le_mono_r; lia). change (2 ^ 7) with 128 in *.
  destruct (Z.leb_spec x (2 ^ (w_schar ws - 1) - 1)); [reflexivity|lia].
Qed.

Lemma ulong_big ws : widths_ok ws -> 2 ^ 64 <= 2 ^ w_llong ws.
Proof. intros (_ & _ & _ & H). apply Z.pow_le_mono_r; lia. Qed.

Definition outcome (ws : widths) (v : Z) : res (cwtype * Z) :=
  if v <? 2 ^ w_llong ws then if v =? 0 then Stop SIllFormed else Ok (cw_type ws v, v) else Stop SIllFormed.

Lemma finish_spec ws base cs ds : widths_ok ws -> cw_base_ok base -> are_digits base cs ds ->
  (let x := cw_accum (2 ^ w_llong ws - 1) base cs 0 in
   if x =? 0 then Stop SIllFormed else Ok (cw_type ws x, x)) = outcome ws (positional base ds).
Proof.
  intros Hw Hb Hd. pose proof (ulong_big ws Hw) as Hu.
  assert (0 < 2 ^ 64) by reflexivity.
  rewrite (accum_spec _ base Hb cs ds 0 Hd) by lia. rewrite Z.mul_0_l, Z.add_0_l. cbv zeta.
  unfold outcome. set (v := positional base ds) in *. set (m := 2 ^ w_llong ws) in *.
  destruct (Z.leb_spec v (m - 1)), (Z.ltb_spec v m); try lia; reflexivity.
Qed.

Lemma parse_many ws s base cs ds : widths_ok ws -> cw_base_ok base ->
  cw_base (cw_prepare s) = base -> skipn (cw_offset base) (cw_prepare s) = cs -> are_digits base cs ds ->
  (2 <= length (cw_prepare s))%nat ->
  cw_parse ws s = outcome ws (positional base ds).
Proof.
  intros Hw Hb Ebase Ecs Hd Hl. unfold cw_parse. rewrite Ebase, Ecs.
  rewrite (are_digits_valid base cs ds Hb Hd). cbn [negb].
  destruct (cw_prepare s) as [|c0 [|c1 l]]; [cbn in Hl; lia|cbn in Hl; lia|].
  now apply finish_spec.
Qed.

Lemma digits_head base s ds : digits base s ds -> exists c d s' ds', s = c :: s' /\ ds = d :: ds'
  /\ digit base c = Some d /\ (ds' = [] -> s' = []).
Proof.
  destruct 1 as [c d H|c d s ds H Hs|c d s ds H Hs].
  - exists c, d, [], []. auto.
  - exists c, d, s, ds. repeat split; auto. intros ->. inversion Hs.
  - exists c, d, ("'"%char :: s), ds. repeat split; auto. intros ->. inversion Hs.
Qed.

Lemma parse_decimal ws s d ds : widths_ok ws -> digits 10 s (d :: ds) -> d <> 0 ->
  cw_parse ws s = outcome ws (positional 10 (d :: ds)).
Proof.
  intros Hw Hs Hd. assert (Hb : cw_base_ok 10) by (unfold cw_base_ok; lia).
  destruct (digits_prepare 10 s _ Hb Hs) as [Ha _].
  remember (cw_prepare s) as arr eqn:Earr. inversion Ha as [|c d0 cs ds0 Hc Hcs E1 E2]; subst d0 ds0.
  destruct (digit_facts 10 c d Hb Hc) as (_ & _ & Hdb & _ & H0).
  assert (Hch0 : ch "0" c = false) by (destruct (ch "0" c); [exfalso; apply Hd; now apply H0|reflexivity]).
  assert (Hbase : cw_base arr = 10) by (rewrite <- E1; unfold cw_base, char_at; cbn [nth_error]; now rewrite Hch0).
  destruct cs as [|c1 cs].
  - unfold cw_parse. rewrite <- Earr, Hbase. cbn [cw_offset Z.eqb Pos.eqb skipn].
    rewrite (are_digits_valid 10 arr (d :: ds) Hb Ha). cbn [negb]. rewrite <- E1.
    rewrite Hch0. pose proof (ulong_big ws Hw) as Hu. change (2 ^ 64) with two64 in Hu.
    assert (Hbig : 2 < two64) by reflexivity.
    inversion Hcs; subst ds. cbn [positional length]. rewrite Z.pow_0_r, Z.mul_1_r, Z.add_0_r.
    assert (Hdig : forall k, ch k c = true -> digit 10 k = Some d).
    { intros k Hk. apply ch_eq in Hk. now subst. }
    destruct (ch "1" c) eqn:E1c.
    { assert (d = 1) by (apply Hdig in E1c; vm_compute in E1c; congruence). subst d. unfold outcome.
      destruct (Z.ltb_spec 1 (2 ^ w_llong ws)); [|lia]. cbn [Z.eqb]. rewrite cw_type_first by (assumption || lia).
      reflexivity. }
    destruct (ch "2" c) eqn:E2c.
    { assert (d = 2) by (apply Hdig in E2c; vm_compute in E2c; congruence). subst d. unfold outcome.
      destruct (Z.ltb_spec 2 (2 ^ w_llong ws)); [|lia]. cbn [Z.eqb]. rewrite cw_type_first by (assumption || lia).
      reflexivity. }
    assert (Hcd : are_digits 10 [c] [d]) by (repeat constructor; assumption).
    pose proof (finish_spec ws 10 [c] [d] Hw Hb Hcd) as HF. cbv zeta in HF |- *. rewrite HF.
    cbn [positional length]. now rewrite Z.pow_0_r, Z.mul_1_r, Z.add_0_r.
  - apply (parse_many ws s 10 arr (d :: ds)); try assumption; rewrite <- Earr; try assumption; try reflexivity.
    rewrite <- E1. cbn. lia.
Qed.

Lemma parse_octal ws s ds : widths_ok ws -> digits 8 s (0 :: ds) ->
  cw_parse ws s = match ds with [] => Ok (TSChar, 0) | _ => outcome ws (positional 8 ds) end
  /\ (ds = [] <-> s = ["0"%char]).
Proof.
  intros Hw Hs. assert (Hb : cw_base_ok 8) by (unfold cw_base_ok; lia).
  destruct (digits_prepare 8 s _ Hb Hs) as [Ha _].
  destruct (digits_head 8 s _ Hs) as (c & d & s' & ds' & Es & Eds & Hc & Hnil).
  injection Eds as <- <-. destruct (digit_facts 8 c 0 Hb Hc) as (_ & _ & _ & _ & H0).
  assert (Hch0 : ch "0" c = true) by now apply H0. pose proof (ch_eq _ _ Hch0) as ->.
  split.
  2:{ split; [intros E; now rewrite Es, (Hnil E)|]. intros E. rewrite E in Ha.
      change (cw_prepare ["0"%char]) with ["0"%char] in Ha.
      inversion Ha as [|? ? ? ? _ Hr]. now inversion Hr. }
  remember (cw_prepare s) as arr eqn:Earr. inversion Ha as [|c0 d0 cs ds0 Hc0 Hcs E1 E2]; subst d0 ds0.
  assert (c0 = "0"%char).
  { destruct (digit_facts 8 c0 0 Hb Hc0) as (_ & _ & _ & _ & H00). apply ch_eq. now apply H00. } subst c0.
  destruct cs as [|c1 [|c2 cs]].
  - destruct ds; [|now inversion Hcs]. unfold cw_parse. rewrite <- Earr, <- E1. reflexivity.
  - destruct ds as [|d1 [|d2 ds]]; [now inversion Hcs| |inversion Hcs as [|? ? ? ? _ Hr]; now inversion Hr].
    assert (Hc1 : digit 8 c1 = Some d1) by now inversion Hcs.
    destruct (oct_facts c1 d1 Hc1) as (_ & _ & _ & Hc10).
    assert (Hb10 : cw_base_ok 10) by (unfold cw_base_ok; lia).
    rewrite (parse_many ws _ 10 ["0"%char; c1] [0; d1] Hw Hb10).
    + cbn [positional length]. f_equal.
    + rewrite <- Earr, <- E1. reflexivity.
    + rewrite <- Earr, <- E1. reflexivity.
    + repeat constructor; assumption.
    + rewrite <- Earr, <- E1. cbn. lia.
  - inversion Hcs as [|? d1 ? ds1 Hc1 Hr E3 E4]. subst ds.
    destruct (oct_facts c1 d1 Hc1) as (Hx & HX & Hbb & _).
    assert (Hbase : cw_base arr = 8).
    { rewrite <- E1. unfold cw_base, char_at. cbn [nth_error]. rewrite ch_refl, Hx, HX, Hbb.
      cbn [length andb orb]. destruct (Z.ltb_spec 2 (Z.of_nat (S (S (S (length cs)))))); [reflexivity|lia]. }
    apply (parse_many ws s 8 (c1 :: c2 :: cs) (d1 :: ds1)); try assumption.
    + rewrite <- Earr. assumption.
    + rewrite <- Earr, <- E1. reflexivity.
    + rewrite <- Earr, <- E1. cbn. lia.
Qed.

Lemma prepare_prefix p s : ch "'" p = false ->
  cw_prepare ("0"%char :: p :: s) = "0"%char :: p :: cw_prepare s.
Proof. intros H. unfold cw_prepare. cbn [filter]. rewrite H. reflexivity. Qed.

Lemma parse_hex ws p s ds : widths_ok ws -> p = "x"%char \/ p = "X"%char -> digits 16 s ds ->
  cw_parse ws ("0"%char :: p :: s) = outcome ws (positional 16 ds).
Proof.
  intros Hw Hp Hs. assert (Hb : cw_base_ok 16) by (unfold cw_base_ok; lia).
  destruct (digits_prepare 16 s _ Hb Hs) as [Ha Hne].
  assert (Hsep : ch "'" p = false) by (destruct Hp as [->| ->]; reflexivity).
  pose proof (prepare_prefix p s Hsep) as Earr.
  destruct (cw_prepare s) as [|c cs] eqn:Es; [inversion Ha; congruence|].
  apply (parse_many ws _ 16 (c :: cs) ds); try assumption; rewrite Earr.
  - unfold cw_base, char_at. cbn [nth_error length]. rewrite ch_refl.
    destruct (Z.ltb_spec 2 (Z.of_nat (S (S (S (length cs)))))); [|lia].
    destruct Hp as [->| ->]; reflexivity.
  - reflexivity.
  - cbn. lia.
Qed.

Lemma parse_binary ws s ds : widths_ok ws -> digits 2 s ds ->
  cw_parse ws ("0"%char :: "b"%char :: s) = outcome ws (positional 2 ds).
Proof.
  intros Hw Hs. assert (Hb : cw_base_ok 2) by (unfold cw_base_ok; lia).
  destruct (digits_prepare 2 s _ Hb Hs) as [Ha Hne].
  pose proof (prepare_prefix "b" s eq_refl) as Earr.
  destruct (cw_prepare s) as [|c cs] eqn:Es; [inversion Ha; congruence|].
  apply (parse_many ws _ 2 (c :: cs) ds); try assumption; rewrite Earr.
  - unfold cw_base, char_at. cbn [nth_error length].
    destruct (Z.ltb_spec 2 (Z.of_nat (S (S (S (length cs)))))); [|lia]. reflexivity.
  - cbn. lia.
Qed.

Lemma parse_upper_binary ws s ds : digits 2 s ds ->
  cw_parse ws ("0"%char :: "B"%char :: s) = Stop SIllFormed.
Proof.
  intros Hs. assert (Hb : cw_base_ok 2) by (unfold cw_base_ok; lia).
  destruct (digits_prepare 2 s _ Hb Hs) as [Ha Hne].
  pose proof (prepare_prefix "B" s eq_refl) as Earr.
  destruct (cw_prepare s) as [|c cs] eqn:Es; [inversion Ha; congruence|].
  unfold cw_parse. rewrite Earr.
  assert (Hbase : cw_base ("0"%char :: "B"%char :: c :: cs) = 8).
  { unfold cw_base, char_at. cbn [nth_error length].
    destruct (Z.ltb_spec 2 (Z.of_nat (S (S (S (length cs)))))); [|lia]. reflexivity. }
  rewrite Hbase. reflexivity.
Qed.

Lemma octal_zero ds cs : are_digits 8 cs ds -> positional 8 ds = 0 -> Forall (eq 0) ds.
Proof.
  intros H. induction H as [|c d cs ds Hc Hcs IH]; intros Hz; [constructor|].
  assert (Hb : cw_base_ok 8) by (unfold cw_base_ok; lia).
  destruct (digit_facts 8 c d Hb Hc) as (_ & _ & Hd & _).
  pose proof (positional_nonneg 8 cs ds Hb Hcs). cbn [positional] in Hz.
  assert (0 < 8 ^ Z.of_nat (length ds)) by (apply Z.pow_pos_nonneg; lia).
  assert (d = 0) by (clear - Hz Hd H H0; nia). subst d. constructor; [reflexivity|]. apply IH. lia.
Qed.

Lemma literal_nonneg s v : literal s v -> 0 <= v.
Proof.
  destruct 1 as [s d ds H _|s ds H|p s ds _ H|p s ds _ H].
  - assert (Hb : cw_base_ok 10) by (unfold cw_base_ok; lia).
    apply (positional_nonneg 10 _ _ Hb (proj1 (digits_prepare 10 s _ Hb H))).
  - assert (Hb : cw_base_ok 8) by (unfold cw_base_ok; lia).
    apply (positional_nonneg 8 _ (0 :: ds) Hb (proj1 (digits_prepare 8 s _ Hb H))).
  - assert (Hb : cw_base_ok 16) by (unfold cw_base_ok; lia).
    apply (positional_nonneg 16 _ _ Hb (proj1 (digits_prepare 16 s _ Hb H))).
  - assert (Hb : cw_base_ok 2) by (unfold cw_base_ok; lia).
    apply (positional_nonneg 2 _ _ Hb (proj1 (digits_prepare 2 s _ Hb H))).
Qed.

Lemma decimal_pos d ds cs : are_digits 10 cs (d :: ds) -> d <> 0 -> positional 10 (d :: ds) <> 0.
Proof.
  intros H Hd. assert (Hb : cw_base_ok 10) by (unfold cw_base_ok; lia).
  inversion H as [|c d0 cs' ds0 Hc Hcs]; subst. destruct (digit_facts 10 c d Hb Hc) as (_ & _ & Hd' & _).
  pose proof (positional_nonneg 10 cs' ds Hb Hcs). cbn [positional].
  assert (0 < 10 ^ Z.of_nat (length ds)) by (apply Z.pow_pos_nonneg; lia). clear - Hd Hd' H0 H1. nia.
Qed.

(** The complete behaviour on literals. *)
Lemma cw_parse_literal ws s v : widths_ok ws -> literal s v ->
  cw_parse ws s =
    (if ascii_dec (nth 1 s " "%char) "B"%char then Stop SIllFormed
     else if v =? 0 then (if list_eq_dec ascii_dec s ["0"%char] then Ok (TSChar, 0) else Stop SIllFormed)
     else if v <? 2 ^ w_llong ws then Ok (cw_type ws v, v) else Stop SIllFormed).
Proof.
  intros Hw Hl.
  assert (Hout : forall v, v <> 0 -> outcome ws v
                 = if v <? 2 ^ w_llong ws then Ok (cw_type ws v, v) else Stop SIllFormed).
  { intros u Hu. unfold outcome. destruct (Z.eqb_spec u 0); [contradiction|reflexivity]. }
  assert (Hout0 : outcome ws 0 = Stop SIllFormed).
  { unfold outcome. cbn [Z.eqb]. now destruct (0 <? 2 ^ w_llong ws). }
  assert (HB : forall base s ds, (base = 10 \/ base = 8) -> digits base s ds -> nth 1 s " "%char <> "B"%char).
  { intros base t ds Hbase Hd. assert (Hx : digit base "B" = None) by (destruct Hbase as [->| ->]; reflexivity).
    destruct Hd as [c d H|c d t ds H Ht|c d t ds H Ht]; cbn [nth]; try discriminate.
    destruct (digits_head _ _ _ Ht) as (c' & d' & t' & ds' & -> & _ & Hc' & _). cbn [nth]. intros ->. congruence. }
  destruct Hl as [s d ds H Hd|s ds H|p s ds Hp H|p s ds Hp H].
  - rewrite (parse_decimal ws s d ds Hw H Hd).
    destruct (ascii_dec _ _) as [E|_]; [exfalso; revert E; apply (HB 10 s _ (or_introl eq_refl) H)|].
    assert (Hb : cw_base_ok 10) by (unfold cw_base_ok; lia).
    pose proof (decimal_pos d ds _ (proj1 (digits_prepare 10 s _ Hb H)) Hd) as Hn.
    destruct (Z.eqb_spec (positional 10 (d :: ds)) 0); [contradiction|]. now apply Hout.
  - destruct (parse_octal ws s ds Hw H) as [-> Hiff].
    destruct (ascii_dec _ _) as [E|_]; [exfalso; revert E; apply (HB 8 s _ (or_intror eq_refl) H)|].
    destruct ds as [|d ds].
    + destruct (list_eq_dec ascii_dec s ["0"%char]) as [E|N]; [reflexivity|]. exfalso. apply N. now apply Hiff.
    + destruct (Z.eqb_spec (positional 8 (d :: ds)) 0) as [Ez|Nz].
      * rewrite Ez, Hout0. destruct (list_eq_dec ascii_dec s ["0"%char]) as [E|N]; [|reflexivity].
        apply Hiff in E. discriminate.
      * now apply Hout.
  - rewrite (parse_hex ws p s ds Hw Hp H). cbn [nth].
    destruct (ascii_dec p "B") as [->|_]; [destruct Hp; discriminate|].
    destruct (Z.eqb_spec (positional 16 ds) 0) as [->|N]; [|now apply Hout].
    rewrite Hout0. destruct (list_eq_dec ascii_dec ("0"%char :: p :: s) ["0"%char]); [discriminate|reflexivity].
  - cbn [nth]. destruct Hp as [->| ->].
    + rewrite (parse_binary ws s ds Hw H). destruct (ascii_dec "b" "B"); [discriminate|].
      destruct (Z.eqb_spec (positional 2 ds) 0) as [->|N]; [|now apply Hout].
      rewrite Hout0. destruct (list_eq_dec ascii_dec ("0"%char :: "b"%char :: s) ["0"%char]); [discriminate|reflexivity].
    + rewrite (parse_upper_binary ws s ds H). destruct (ascii_dec "B" "B"); [reflexivity|congruence].
Qed.

Lemma upper_binary_nth s v : literal s v -> (upper_binary s <-> nth 1 s " "%char = "B"%char).
Proof.
  intros Hl. split; [intros [t ->]; reflexivity|]. intros E.
  assert (HB : forall base s ds, (base = 10 \/ base = 8) -> digits base s ds -> nth 1 s " "%char <> "B"%char).
  { intros base t ds Hbase Hd. assert (Hx : digit base "B" = None) by (destruct Hbase as [->| ->]; reflexivity).
    destruct Hd as [c d H|c d t ds H Ht|c d t ds H Ht]; cbn [nth]; try discriminate.
    destruct (digits_head _ _ _ Ht) as (c' & d' & t' & ds' & -> & _ & Hc' & _). cbn [nth]. intros ->. congruence. }
  destruct Hl as [s d ds H Hd|s ds H|p s ds Hp H|p s ds Hp H].
  - exfalso. revert E. apply (HB 10 s _ (or_introl eq_refl) H).
  - exfalso. revert E. apply (HB 8 s _ (or_intror eq_refl) H).
  - cbn in E. subst p. now exists s.
  - cbn in E. subst p. now exists s.
Qed.

(** C27 *)
Lemma cw_value ws s v ty x : widths_ok ws -> literal s v -> cw_parse ws s = Ok (ty, x) -> x = v.
Proof.
  intros Hw Hl. rewrite (cw_parse_literal ws s v Hw Hl). destruct (ascii_dec _ _); [discriminate|].
  destruct (Z.eqb_spec v 0) as [->|].
  - destruct (list_eq_dec _ _ _); [|discriminate]. intros E. now injection E as <- <-.
  - destruct (v <? _); [|discriminate]. intros E. now injection E as <- <-.
Qed.

(** C28 *)
Lemma cw_accepts ws s v : widths_ok ws -> literal s v -> v < 2 ^ w_llong ws -> ~ upper_binary s ->
  (v <> 0 \/ s = ["0"%char]) -> exists ty, cw_parse ws s = Ok (ty, v).
Proof.
  intros Hw Hl Hv Hub Hz. rewrite (cw_parse_literal ws s v Hw Hl).
  destruct (ascii_dec _ _) as [E|_]; [exfalso; apply Hub; now apply (upper_binary_nth s v Hl)|].
  destruct (Z.eqb_spec v 0) as [->|N].
  - destruct Hz as [|Hz]; [lia|]. destruct (list_eq_dec _ _ _) as [_|N]; [eauto|contradiction].
  - destruct (Z.ltb_spec v (2 ^ w_llong ws)); [eauto|lia].
Qed.

Lemma cw_rejects_large ws s v : widths_ok ws -> literal s v -> 2 ^ w_llong ws <= v ->
  cw_parse ws s = Stop SIllFormed.
Proof.
  intros Hw Hl Hv. rewrite (cw_parse_literal ws s v Hw Hl). destruct (ascii_dec _ _); [reflexivity|].
  pose proof (ulong_big ws Hw) as Hu. assert (0 < 2 ^ 64) by reflexivity.
  destruct (Z.eqb_spec v 0); [lia|]. destruct (Z.ltb_spec v (2 ^ w_llong ws)); [lia|reflexivity].
Qed.

Lemma cw_accepted_iff ws s v : widths_ok ws -> literal s v ->
  ((exists ty, cw_parse ws s = Ok (ty, v)) <->
   v < 2 ^ w_llong ws /\ ~ upper_binary s /\ (v <> 0 \/ s = ["0"%char])).
Proof.
  intros Hw Hl. split.
  - intros [ty E]. pose proof (upper_binary_nth s v Hl) as Hub. rewrite (cw_parse_literal ws s v Hw Hl) in E.
    pose proof (ulong_big ws Hw) as Hu. assert (0 < 2 ^ 64) by reflexivity.
    destruct (ascii_dec _ _) as [|N]; [discriminate|]. destruct (Z.eqb_spec v 0) as [->|].
    + destruct (list_eq_dec _ _ _); [|discriminate]. repeat split; [lia|tauto|now right].
    + destruct (Z.ltb_spec v (2 ^ w_llong ws)); [|discriminate]. repeat split; [lia|tauto|now left].
  - intros (H1 & H2 & H3). now apply cw_accepts.
Qed.

(** C29: what each type represents, and the order in which types are preferred. *)
Definition represents (ws : widths) (t : cwtype) (x : Z) : Prop :=
  match t with
  | TSChar => - 2 ^ (w_schar ws - 1) <= x < 2 ^ (w_schar ws - 1)
  | TShort => - 2 ^ (w_short ws - 1) <= x < 2 ^ (w_short ws - 1)
  | TInt => - 2 ^ (w_int ws - 1) <= x < 2 ^ (w_int ws - 1)
  | TLong => - 2 ^ (w_long ws - 1) <= x < 2 ^ (w_long ws - 1)
  | TLongLong => - 2 ^ (w_llong ws - 1) <= x < 2 ^ (w_llong ws - 1)
  | TULongLong => 0 <= x < 2 ^ w_llong ws
  end.
Definition rank (t : cwtype) : Z :=
  match t with TSChar => 0 | TShort => 1 | TInt => 2 | TLong => 3 | TLongLong => 4 | TULongLong => 5 end.

Lemma cw_type_smallest ws x : 0 <= x < 2 ^ w_llong ws ->
  represents ws (cw_type ws x) x /\ forall t, rank t < rank (cw_type ws x) -> ~ represents ws t x.
Proof.
  intros Hx. unfold cw_type, signed_max.
  repeat match goal with |- context [if ?a <=? ?b then _ else _] => destruct (Z.leb_spec a b) end;
    (split; [cbn [represents]; lia|intros [] Hr; cbn [rank represents] in *; lia]).
Qed.

Lemma cw_smallest_type ws s v ty x : widths_ok ws -> literal s v -> cw_parse ws s = Ok (ty, x) ->
  represents ws ty x /\ forall t, rank t < rank ty -> ~ represents ws t x.
Proof.
  intros Hw Hl E. pose proof (literal_nonneg s v Hl) as Hv.
  assert (Hx : 0 <= x < 2 ^ w_llong ws /\ ty = cw_type ws x).
  { rewrite (cw_parse_literal ws s v Hw Hl) in E. destruct (ascii_dec _ _); [discriminate|].
    pose proof (ulong_big ws Hw) as Hu. assert (0 < 2 ^ 64) by reflexivity.
    destruct (Z.eqb_spec v 0) as [->|].
    - destruct (list_eq_dec _ _ _); [|discriminate]. injection E as <- <-.
      rewrite cw_type_first by (assumption || lia). split; [lia|reflexivity].
    - destruct (Z.ltb_spec v (2 ^ w_llong ws)); [|discriminate]. injection E as <- <-. split; [lia|reflexivity]. }
  destruct Hx as [Hx ->]. now apply cw_type_smallest.
Qed.

(** ** For the examples *)
From Coq Require Import String.
Definition lp64 : widths := mkwidths 8 16 32 64 64.
Notation chars s := (list_ascii_of_string s%string).
