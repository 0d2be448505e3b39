(** Proofs about the ABI tags. *)
From Verif Require Import Base BaseFacts AbiModel AbiSpec.
Ltac Zify.zify_post_hook ::= idtac.

Lemma native_register m sz is_float : In sz [1; 2; 4; 8] -> ~ (m = MAvx /\ is_float = true) ->
  bytes sz (native m sz is_float) = register_bytes m is_float.
Proof.
  intros Hs Hm. repeat (destruct Hs as [<-|Hs]; [destruct m, is_float; try reflexivity; exfalso; now apply Hm|]). destruct Hs.
Qed.

Lemma native_avx_float sz : In sz [1; 2; 4; 8] -> native MAvx sz true = AFixed 32.
Proof. intros Hs. repeat (destruct Hs as [<-|Hs]; [reflexivity|]). destruct Hs. Qed.

Lemma native_avx_refuted : exists sz, In sz [4; 8] /\ bytes sz (native MAvx sz true) <> register_bytes MAvx true.
Proof. exists 4. split; [now left|]. discriminate. Qed.

Lemma native_large m sz is_float : 8 < sz -> native m sz is_float = AScalar /\ compatible sz = AScalar.
Proof. intros H. unfold native, compatible. destruct (Z.ltb_spec 8 sz); [now split|lia]. Qed.

Lemma compatible_bytes sz : In sz [1; 2; 4; 8] -> bytes sz (compatible sz) = 16.
Proof. intros Hs. repeat (destruct Hs as [<-|Hs]; [reflexivity|]). destruct Hs. Qed.

Lemma deduce_lanes n : 1 <= n < 2147483648 -> simd_size (deduce n) = Ok n /\ (deduce n = AScalar <-> n = 1).
Proof.
  intros H. unfold deduce, to_int. destruct (Z.eqb_spec n 1) as [->|Hne]; [now repeat split|].
  rewrite Z.mod_small by lia. replace (n + 2147483648 - 2147483648) with n by lia. cbn [simd_size].
  destruct (Z.ltb_spec n 0); [lia|]. split; [reflexivity|]. split; [discriminate|contradiction].
Qed.

Lemma rebind_lanes {E} (t : E) v : v_elem (rebind_simd t v) = t /\ v_mask (rebind_simd t v) = v_mask v
  /\ simd_size (v_abi (rebind_simd t v)) = simd_size (v_abi v).
Proof. now repeat split. Qed.

Lemma resize_lanes {E} n (v : vtype E) : n < 2147483648 ->
  (forall r, resize_simd n v = Ok r -> v_elem r = v_elem v /\ v_mask r = v_mask v /\ simd_size (v_abi r) = Ok n
             /\ v_abi r = deduce n)
  /\ ((exists r, resize_simd n v = Ok r) <-> 1 <= n).
Proof.
  intros Hn. unfold resize_simd. destruct (Z.ltb_spec 0 n) as [H|H].
  - split; [|split; [lia|eexists; reflexivity] ]. intros r Er. injection Er as <-. cbn [v_elem v_mask v_abi].
    split; [reflexivity|]. split; [reflexivity|].
    assert (Ed : (if n =? 1 then AScalar else AFixed n) = deduce n).
    { unfold deduce, to_int. destruct (Z.eqb_spec n 1); [reflexivity|]. rewrite Z.mod_small by lia. f_equal. lia. }
    split; [|exact Ed]. rewrite Ed. apply deduce_lanes. lia.
  - split; [discriminate|]. split; [intros [r Hr]; discriminate|lia].
Qed.

Lemma rebind_resize {E} n (t : E) v : bindR (resize_simd n v) (fun r => Ok (rebind_simd t r)) = resize_simd n (rebind_simd t v).
Proof. unfold resize_simd. destruct (0 <? n); reflexivity. Qed.

Lemma resize_again {E} n k (v : vtype E) : 1 <= n -> bindR (resize_simd n v) (resize_simd k) = resize_simd k v.
Proof. intros H. unfold resize_simd. destruct (Z.ltb_spec 0 n); [reflexivity|lia]. Qed.
