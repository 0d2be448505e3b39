(** Property theorems C15 (masks), C36 (casts to masks) and C75 (members). *)
From Verif Require Import Base MaskModel LaneModel IntModel BitModel BitProofs MaskObjects.
From Verif Require Import TraitModel TraitProofs TraitMembers.

(** C15.  A mask loaded from an array of bool has element i in lane i, and it needs all its elements. *)
Theorem C15_mask_load :
  forall m p n r, mask_load m p n = Ok r <->
    length r = n /\ forall i, (i < n)%nat -> exists b, m (p + Z.of_nat i) = Some b /\ nth_error r i = Some b.
Proof. exact mask_load_iff. Qed.
Print Assumptions C15_mask_load.

Theorem C15_mask_copy_to_defined :
  forall m p k, (exists m', mask_copy_to m p k = Ok m') <->
    forall i, (i < length k)%nat -> m (p + Z.of_nat i) <> None.
Proof. exact mask_copy_to_iff. Qed.
Print Assumptions C15_mask_copy_to_defined.

(** Storing changes the elements of the mask and no other; loading gives the mask back. *)
Theorem C15_mask_copy_to :
  forall m p k m', mask_copy_to m p k = Ok m' ->
    (forall i b, nth_error k i = Some b -> m' (p + Z.of_nat i) = Some b)
    /\ (forall q, ~ (p <= q < p + Z.of_nat (length k)) -> m' q = m q)
    /\ mask_load m' p (length k) = Ok k.
Proof. exact mask_copy_to_effect. Qed.
Print Assumptions C15_mask_copy_to.

Example C15_mask_case :
  let m : mem bool := fun q => if (4 <=? q) && (q <? 7) then Some (q =? 5) else None in
  mask_load m 4 3 = Ok [false; true; false] /\ mask_load m 5 3 = Stop SUB
  /\ exists m', mask_copy_to m 5 [true; true] = Ok m' /\ mask_load m' 4 3 = Ok [false; true; true].
Proof. repeat split. eexists. split; [reflexivity|]. reflexivity. Qed.

(** C36.  Casting to a mask is defined exactly if every byte is 0 or 1 (bool of one byte). *)
Theorem C36_cast_to_mask :
  forall to from x, wf from x -> sizeof to = sizeof from -> v_bool to = true -> v_size to = 1%nat ->
    (exists r, simd_bit_cast to from x = Ok r) <-> (forall o b, In o x -> In b o -> b = Some 0 \/ b = Some 1).
Proof. exact cast_to_mask. Qed.
Print Assumptions C36_cast_to_mask.

Example C36_cast_to_mask_case :
  simd_bit_cast (mkvty 4 1 true) (mkvty 2 2 false) [[Some 1; Some 0]; [Some 1; Some 1]]
    = Ok [[Some 1]; [Some 0]; [Some 1]; [Some 1]]
  /\ simd_bit_cast (mkvty 4 1 true) (mkvty 2 2 false) [[Some 1; Some 3]; [Some 1; Some 1]] = Stop SUB.
Proof. split; reflexivity. Qed.

(** C75.  Which simd and simd_mask cannot be instantiated: no lanes, and for masks only of suitable types. *)
Theorem C75_members_error_iff :
  forall v s, (size v = Stop s <-> value_type v = Stop s) /\ (abi_type v = Stop s <-> value_type v = Stop s)
    /\ (simd_type v = Stop s <-> value_type v = Stop s)
    /\ (value_type v = Stop s <-> s = SIllFormed
        /\ ((exists e a, v = Simd e a /\ no_lanes a) \/ (exists e a, v = Mask e a /\ is_vectorizable e = true /\ no_lanes a))).
Proof. exact members_error. Qed.
Print Assumptions C75_members_error_iff.

(** Exactly the simd and simd_mask that are supported have a number of lanes. *)
Theorem C75_size_iff :
  forall v n, size v = Ok (Some n) <->
    (exists e a, (v = Simd e a \/ v = Mask e a /\ is_vectorizable e = true) /\ tag_lanes a n /\ 0 < n).
Proof. exact size_iff. Qed.
Print Assumptions C75_size_iff.

Example C75_size_case :
  size (Simd (Arith 3) (AbiFixed 4)) = Ok (Some 4) /\ size (Mask (Arith 3) AbiScalar) = Ok (Some 1)
  /\ size (Mask Bool (AbiFixed 0)) = Ok None /\ size (Mask (Arith 3) (AbiFixed 0)) = Stop SIllFormed.
Proof. repeat split. Qed.
