(** Property theorems C47, C75. *)
From Verif Require Import Base TraitModel TraitProofs.

(** C47: which types are vectorizable; the concept and the trait agree. *)
Theorem C47_concept_is_trait : forall t, vectorizable t = is_vectorizable t.
Proof. exact vectorizable_same. Qed.
Print Assumptions C47_concept_is_trait.

Theorem C47_vectorizable_partial :
  forall t, (forall u, t <> Cv u) -> (is_vectorizable t = true <-> ts_vectorizable t).
Proof. exact vectorizable_unqualified. Qed.
Print Assumptions C47_vectorizable_partial.

(** Finding: cv-qualified arithmetic types are accepted, among them const bool. *)
Theorem C47_vectorizable_refuted :
  exists t, is_vectorizable t = true /\ vectorizable t = true /\ ~ ts_vectorizable t /\ t = Cv Bool.
Proof. exact vectorizable_refuted. Qed.
Print Assumptions C47_vectorizable_refuted.

Theorem C47_vectorizable_exact :
  forall t, is_vectorizable t = true <-> ts_vectorizable t \/ exists u, t = Cv u /\ arith_core u.
Proof. exact vectorizable_exact. Qed.
Print Assumptions C47_vectorizable_exact.

Theorem C47_abi_tag : forall t, is_abi_tag t = true <-> ts_abi_tag t.
Proof. exact abi_tag_iff. Qed.
Print Assumptions C47_abi_tag.

Theorem C47_simd_and_mask :
  forall t, (is_simd t = true <-> exists e a, t = Simd e a /\ is_vectorizable e = true /\ ts_abi_tag a)
    /\ (is_simd_mask t = true <-> exists e a, t = Mask e a /\ is_vectorizable e = true /\ ts_abi_tag a)
    /\ ~ (is_simd t = true /\ is_simd_mask t = true).
Proof. exact simd_iff. Qed.
Print Assumptions C47_simd_and_mask.

(** The concepts add no condition.  (The hypothesis is about fixed_size<N> with N <= 0.) *)
Theorem C47_concepts_partial :
  forall v, (forall e a, v = Simd e a \/ v = Mask e a -> is_vectorizable e = true -> ~ no_lanes a) ->
    any_simd v = Ok (is_simd v) /\ any_simd_mask v = Ok (is_simd_mask v)
    /\ any_simd_or_mask v = Ok (is_simd v || is_simd_mask v).
Proof. exact concepts_same. Qed.
Print Assumptions C47_concepts_partial.

(** Finding: for the others the traits are true, but the concepts are an error. *)
Theorem C47_concepts_error_iff :
  forall v,
    (any_simd v = Stop SIllFormed <-> exists e a, v = Simd e a /\ is_vectorizable e = true /\ no_lanes a)
    /\ (any_simd_mask v = Stop SIllFormed <-> exists e a, v = Mask e a /\ is_vectorizable e = true /\ no_lanes a).
Proof. exact concepts_error. Qed.
Print Assumptions C47_concepts_error_iff.

Theorem C47_concepts_refuted :
  is_simd (Simd (Arith 3) (AbiFixed 0)) = true /\ any_simd (Simd (Arith 3) (AbiFixed 0)) = Stop SIllFormed.
Proof. exact concepts_error_case. Qed.
Print Assumptions C47_concepts_refuted.

(** C75: the concepts for a given element type or number of lanes. *)
Theorem C75_typed_iff :
  forall v t, typed_simd v t = Ok true <->
    exists a n, v = Simd t a /\ is_vectorizable t = true /\ tag_lanes a n /\ 0 < n.
Proof. exact typed_simd_iff. Qed.
Print Assumptions C75_typed_iff.

Theorem C75_sized_iff :
  forall v w, sized_simd v w = Ok true <->
    exists e a, v = Simd e a /\ is_vectorizable e = true /\ tag_lanes a w /\ 0 < w.
Proof. exact sized_simd_iff. Qed.
Print Assumptions C75_sized_iff.

Theorem C75_sized_mask_iff :
  forall v w, sized_simd_mask v w = Ok true <->
    exists e a, v = Mask e a /\ is_vectorizable e = true /\ tag_lanes a w /\ 0 < w.
Proof. exact sized_simd_mask_iff. Qed.
Print Assumptions C75_sized_mask_iff.

Theorem C75_error_iff :
  forall v t w s, (typed_simd v t = Stop s <-> any_simd v = Stop s)
    /\ (sized_simd v w = Stop s <-> any_simd v = Stop s)
    /\ (sized_simd_mask v w = Stop s <-> any_simd_mask v = Stop s).
Proof. exact narrower_error. Qed.
Print Assumptions C75_error_iff.

(** C75: memory_alignment is the alignment of the element type wherever the TS asks for it, *)
Theorem C75_alignment :
  forall al v u, ts_has_alignment v u -> memory_alignment al v u = Some (al u).
Proof. exact alignment_value. Qed.
Print Assumptions C75_alignment.

(** and exists for every simd and simd_mask, supported or not (finding). *)
Theorem C75_alignment_iff :
  forall al v u, memory_alignment al v u <> None <->
    ((exists e a, v = Simd e a) /\ is_vectorizable u = true) \/ ((exists e a, v = Mask e a) /\ u = Bool).
Proof. exact alignment_iff. Qed.
Print Assumptions C75_alignment_iff.

Theorem C75_alignment_refuted :
  exists v u, (forall al, memory_alignment al v u = Some (al u)) /\ ~ ts_has_alignment v u /\ v = Simd Bool AbiScalar.
Proof. exact alignment_refuted. Qed.
Print Assumptions C75_alignment_refuted.

Example C75_case :
  typed_simd (Simd (Arith 3) (AbiFixed 4)) (Arith 3) = Ok true
  /\ typed_simd (Simd (Arith 3) (AbiFixed 4)) (Cv (Arith 3)) = Ok false
  /\ sized_simd (Simd (Arith 3) (AbiFixed 4)) 4 = Ok true /\ sized_simd (Simd (Arith 3) AbiScalar) 4 = Ok false
  /\ sized_simd (Mask (Arith 3) (AbiFixed 4)) 4 = Ok false /\ sized_simd_mask (Mask (Arith 3) AbiScalar) 1 = Ok true
  /\ sized_simd (Simd (Arith 3) (AbiFixed (-1))) 18446744073709551615 = Stop SIllFormed
  /\ ts_has_alignment (Simd (Arith 3) (AbiFixed 4)) (Arith 1).
Proof. repeat split. left. split; reflexivity. Qed.

Theorem C47_loadstore :
  forall p v, loadstore p v = true <->
    (p = Bool /\ v = Bool) \/ (is_vectorizable p = true /\ is_vectorizable v = true).
Proof. exact loadstore_iff. Qed.
Print Assumptions C47_loadstore.

(** Finding: no flag type is one. *)
Theorem C47_flag_type_refuted : exists t, ts_flag_type t /\ is_simd_flag_type t = false.
Proof. exact flag_refuted. Qed.
Print Assumptions C47_flag_type_refuted.

Example C47_instance :
  is_simd (Simd (Arith 3) (AbiFixed 4)) = true /\ is_simd (Simd Bool AbiScalar) = false
  /\ any_simd (Simd (Cv (Arith 3)) AbiScalar) = Ok true /\ is_simd_mask (Mask (Arith 1) ElementAligned) = false
  /\ loadstore Bool (Arith 3) = false /\ loadstore (Arith 1) (Arith 3) = true /\ (forall u, Arith 3 <> Cv u).
Proof. repeat split. discriminate. Qed.
