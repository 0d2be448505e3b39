(** When the members of simd and simd_mask exist (C75). *)
From Verif Require Import Base TraitModel TraitProofs.

Lemma complete_stop v s : complete v = Stop s <-> s = SIllFormed
  /\ ((exists e a, v = Simd e a /\ no_lanes a) \/ (exists e a, v = Mask e a /\ is_vectorizable e = true /\ no_lanes a)).
Proof.
  split.
  - destruct v as [| | | | | |e a|e a| | |]; try discriminate; destruct a; try discriminate; cbn [complete].
    + destruct (Z.ltb_spec 0 n); [discriminate|]. intros [= <-]. split; [reflexivity|]. left. do 2 eexists.
      split; [reflexivity|]. apply no_lanes_fixed. eauto.
    + destruct (is_vectorizable e) eqn:Ee; cbn [andb]; [|discriminate].
      destruct (Z.ltb_spec 0 n); cbn [negb]; [discriminate|]. intros [= <-]. split; [reflexivity|]. right. do 2 eexists.
      split; [reflexivity|]. split; [exact Ee|]. apply no_lanes_fixed. eauto.
  - intros [-> [(e & a & -> & H) | (e & a & -> & Ee & H)]]; apply no_lanes_fixed in H as (n & -> & Hn); cbn [complete].
    + destruct (Z.ltb_spec 0 n); [lia|reflexivity].
    + rewrite Ee. destruct (Z.ltb_spec 0 n); [lia|reflexivity].
Qed.

Lemma member_stop {X} v (x : X) s : bindR (complete v) (fun _ => Ok x) = Stop s <-> complete v = Stop s.
Proof. destruct (complete v) as [[]|e]; cbn; split; congruence. Qed.

Theorem members_error v s : (size v = Stop s <-> value_type v = Stop s) /\ (abi_type v = Stop s <-> value_type v = Stop s)
  /\ (simd_type v = Stop s <-> value_type v = Stop s)
  /\ (value_type v = Stop s <-> s = SIllFormed
      /\ ((exists e a, v = Simd e a /\ no_lanes a) \/ (exists e a, v = Mask e a /\ is_vectorizable e = true /\ no_lanes a))).
Proof. unfold size, value_type, abi_type, simd_type. rewrite !member_stop, <- complete_stop. tauto. Qed.

Theorem size_iff v n : size v = Ok (Some n) <->
  (exists e a, (v = Simd e a \/ v = Mask e a /\ is_vectorizable e = true) /\ tag_lanes a n /\ 0 < n).
Proof.
  split.
  - unfold size. destruct v as [| | | | | |e a|e a| | |]; try discriminate; destruct a; try discriminate; cbn [complete bindR].
    + intros [= <-]. do 2 eexists. split; [now left|]. split; [constructor|lia].
    + destruct (Z.ltb_spec 0 n0); [|discriminate]. intros [= <-]. do 2 eexists. split; [now left|].
      split; [constructor|assumption].
    + destruct (is_vectorizable e) eqn:Ee; [|discriminate]. intros [= <-]. do 2 eexists.
      split; [right; eauto|]. split; [constructor|lia].
    + destruct (is_vectorizable e) eqn:Ee; cbn [andb]; [|discriminate].
      destruct (Z.ltb_spec 0 n0); cbn [negb]; [|discriminate]. intros [= <-]. do 2 eexists.
      split; [right; eauto|]. split; [constructor|assumption].
  - intros (e & a & Hv & Ht & Hn). assert (P : 0 <? n = true) by (apply Z.ltb_lt; exact Hn).
    destruct Ht; destruct Hv as [-> | [-> Ee]]; unfold size; cbn [complete]; rewrite ?Ee, ?P; reflexivity.
Qed.
