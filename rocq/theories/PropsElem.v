(** Property theorems C72: the value types the algorithms are constrained to, and those they can process. *)
From Verif Require Import Base SimdizeModel SimdizeSpec SimdizeTypeModel SimdizeTypeSpec SimdizeTypeProofs SimdizeTypeExamples
  AcceptModel AcceptSpec InstModel ElemModel ElemSpec ElemProofs.

(** C72.  What the documentation says suffices for the concepts.  Missing: the converse (refuted below). *)
Theorem C72_documented_partial :
  forall s, natives_ok (s_value s) -> documented s -> simd_execution s = Ok true.
Proof. exact documented_concept. Qed.
Print Assumptions C72_documented_partial.

(** Exactly when the concepts hold, do not hold, and make the translation unit ill-formed. *)
Theorem C72_concept_iff :
  forall s, natives_ok (s_value s) ->
    (simd_execution s = Ok true
     <-> s_contiguous s = true /\ (vectorizable_type (s_value s) -> defaults_ok (s_value s)))
    /\ (simd_execution s = Ok false <-> s_contiguous s = false)
    /\ (simd_execution s = Stop SIllFormed
        <-> s_contiguous s = true /\ vectorizable_type (s_value s) /\ ~ defaults_ok (s_value s)).
Proof. exact concept_iff. Qed.
Print Assumptions C72_concept_iff.

(** A contiguous range of bool, of pointers, of strings: the concept holds, simdize leaves the type alone whatever the
    width, and no algorithm can be instantiated. *)
Theorem C72_concept_refuted :
  exists s, natives_ok (s_value s) /\ simd_execution s = Ok true /\ ~ documented s
    /\ (forall n, simdize (s_value s) n = Ok Same)
    /\ (forall osize q, for_each_over osize (s_value s) q = false /\ count_if_over osize (s_value s) q = false)
    /\ (forall p out q, transform_over p [s_value s] out q = false).
Proof.
  exists (mksource true (Leaf Opaque)).
  assert (N : natives_ok (s_value (mksource true (Leaf Opaque)))) by (intros l n [<-|[] ] [can E]; discriminate).
  split; [exact N|]. split; [reflexivity|]. split; [|split; [reflexivity|split] ].
  - intros (_ & n & _ & [_ O] & _). apply O. now left.
  - intros osize q. split; reflexivity.
  - intros p out q. unfold transform_over. destruct (0 <? q_size q); reflexivity.
Qed.
Print Assumptions C72_concept_refuted.

(** A contiguous range of structs for which the concept is not false but an error. *)
Theorem C72_error_refuted :
  exists s, natives_ok (s_value s) /\ s_contiguous s = true /\ ~ documented s /\ simd_execution s = Stop SIllFormed
    /\ exists n, 0 < n /\ all_allow n (s_value s).
Proof.
  destruct nested_default_refuted as (t & n & V & N & P & A & E & _).
  exists (mksource true t). split; [exact N|]. split; [reflexivity|].
  assert (D : ~ defaults_ok t).
  { intros D. apply (simdize_wellformed_iff t n V N) in D as [r D]. unfold simdize in E. congruence. }
  split; [intros (_ & k & _ & _ & D' & _); contradiction|]. split; [|eauto].
  apply (concept_iff (mksource true t) N). auto.
Qed.
Print Assumptions C72_error_refuted.

(** Value types for_each can process, exactly: scalars and structs of scalars, with every width that is instantiated;
    count_if the same. *)
Theorem C72_for_each_iff :
  forall osize t q, natives_ok t -> 0 <= q_size q -> (forall n, asked (q_size q) t n -> prologue_fits q n) ->
    (for_each_over osize t q = true
     <-> flat t /\ exists n, asked (q_size q) t n /\ turns_into n t
                   /\ (1 < n -> forall j, 0 <= j -> 2 ^ j <= 32 \/ 2 ^ j < n -> turns_into (2 ^ j) t)).
Proof. exact for_each_over_iff. Qed.
Print Assumptions C72_for_each_iff.

Theorem C72_count_if :
  forall osize t q, natives_ok t -> 0 <= q_size q -> (forall n, asked (q_size q) t n -> prologue_fits q n) ->
    count_if_over osize t q = for_each_over osize t q.
Proof. exact count_if_over_iff. Qed.
Print Assumptions C72_count_if.

(** With simds of all widths, as in the fallback: *)
Theorem C72_for_each_fallback_iff :
  forall osize t q, natives_ok t -> unlimited t -> 0 <= q_size q ->
    (forall n, asked (q_size q) t n -> prologue_fits q n) ->
    (for_each_over osize t q = true <-> flat t /\ vectorizable_type t).
Proof. exact for_each_unlimited_iff. Qed.
Print Assumptions C72_for_each_fallback_iff.

(** so a struct with a struct as member meets the documented condition, and cannot be processed. *)
Theorem C72_nested_refuted :
  exists s, natives_ok (s_value s) /\ unlimited (s_value s) /\ documented s /\ simd_execution s = Ok true
    /\ forall osize q, 0 <= q_size q -> (forall n, asked (q_size q) (s_value s) n -> prologue_fits q n) ->
         for_each_over osize (s_value s) q = false.
Proof.
  set (t := Struct [Struct [ex_any 4; ex_any 4]; ex_any 8]).
  assert (N : natives_ok t).
  { intros l n I [can E]. subst l. cbn in I. repeat destruct I as [I|I]; try contradiction; injection I as <- <-; lia. }
  assert (U : unlimited t).
  { intros native can n I L. cbn in I. repeat destruct I as [I|I]; try contradiction; injection I as <- <-; now apply Z.ltb_lt. }
  assert (V : vectorizable_type t) by now apply rec_vec_spec.
  assert (D : documented (mksource true t)).
  { split; [reflexivity|]. destruct (widest_ex t V) as [w W]. exists w. split; [exact W|].
    apply unlimited_turns; auto. now apply (widest_pos t). }
  exists (mksource true t). split; [exact N|]. split; [exact U|]. split; [exact D|].
  split; [now apply documented_concept|]. intros osize q P F. now apply nested_not_loaded.
Qed.
Print Assumptions C72_nested_refuted.

(** transform: the inputs are loaded and have to be flat, the output is stored and need not be.  A policy without a
    size needs every input's own default width as well. *)
Theorem C72_transform_iff :
  forall p ts out q, ts <> [] -> (forall t, In t ts -> natives_ok t) -> natives_ok out ->
    0 <= q_size q -> (forall n, asked_of_all (q_size q) ts n -> prologue_fits q n) ->
    (transform_over p ts out q = true
     <-> (forall t, In t ts -> flat t)
         /\ (q_size q = 0 -> forall t, In t ts -> exists m, widest t m /\ turns_into m t)
         /\ exists n, asked_of_all (q_size q) ts n
            /\ (forall k, k = n \/ k = 1 -> (forall t, In t ts -> turns_into k t) /\ turns_into k out)
            /\ (forall e j, q_prologue q = Some e -> 0 <= j < Z.of_nat e ->
                  (forall t, In t ts -> turns_into (2 ^ j) t) /\ turns_into (2 ^ j) out)
            /\ (q_matching q = false -> forall j, 0 <= j -> 2 ^ j < n ->
                  (forall t, In t ts -> turns_into (2 ^ j) t) /\ turns_into (2 ^ j) out)).
Proof. exact transform_over_iff. Qed.
Print Assumptions C72_transform_iff.

(** transform_reduce: the inputs have to be flat, and all widths below are needed whatever the policy assumes; with
    more than one lane the type of init has to be a scalar, *)
Theorem C72_transform_reduce_iff :
  forall p ts acc q, ts <> [] -> (forall t, In t ts -> natives_ok t) -> natives_ok acc ->
    0 <= q_size q -> (forall n, asked_of_all (q_size q) ts n -> prologue_fits q n) ->
    (transform_reduce_over p ts acc q = true
     <-> (forall t, In t ts -> flat t)
         /\ (q_size q = 0 -> forall t, In t ts -> exists m, widest t m /\ turns_into m t)
         /\ exists n, asked_of_all (q_size q) ts n
            /\ (forall k, k = n \/ k = 1 -> (forall t, In t ts -> turns_into k t) /\ turns_into k acc)
            /\ (forall j, 0 <= j -> 2 ^ j < n ->
                  (forall t, In t ts -> turns_into (2 ^ j) t) /\ turns_into (2 ^ j) acc)
            /\ (1 < n -> exists l, acc = Leaf l)).
Proof. exact transform_reduce_over_iff. Qed.
Print Assumptions C72_transform_reduce_iff.

(** so a range of structs can be transformed with every policy, and reduced with one lane only. *)
Theorem C72_struct_sum_refuted :
  exists t, natives_ok t /\ unlimited t /\ flat t /\ documented (mksource true t)
    /\ forall p q, 0 <= q_size q -> (forall n, asked_of_all (q_size q) [t] n -> prologue_fits q n) ->
         transform_over p [t] t q = true /\ (transform_reduce_over p [t] t q = true <-> q_size q = 1).
Proof. exact struct_sum. Qed.
Print Assumptions C72_struct_sum_refuted.

(** struct { float x, y; } with 4 native lanes and at most 32, alone and with double (2 native lanes); with 12 lanes;
    64 lanes do not exist. *)
Example C72_case :
  let pair := Struct [ex_float; ex_float] in
  let q n := mkpolicy n 2 false (Some 2%nat) in
  natives_ok pair /\ documented (mksource true pair) /\ flat pair
  /\ prologue_fits (q 0) 4 /\ asked 0 pair 4
  /\ for_each_over false pair (q 0) = true /\ for_each_over false pair (q 12) = true
  /\ for_each_over false pair (q 64) = false
  /\ transform_over lp64_platform [pair; ex_any 2] (Struct [pair; ex_float]) (q 0) = true
  /\ transform_over lp64_platform [Struct [pair; ex_float]; ex_any 2] pair (q 0) = false
  /\ transform_over lp64_platform [pair; ex_any 64] pair (q 0) = false
  /\ default_width [pair; ex_any 8; ex_any 2] = Some 8
  /\ transform_reduce_over lp64_platform [pair; ex_any 2] ex_float (q 0) = true
  /\ transform_reduce_over lp64_platform [pair; ex_any 2] ex_float (q 64) = false
  /\ transform_reduce_over lp64_platform [pair] pair (q 4) = false
  /\ transform_reduce_over lp64_platform [pair] pair (mkpolicy 1 2 true None) = true.
Proof.
  cbv zeta. assert (N : natives_ok (Struct [ex_float; ex_float])).
  { intros l n I [can E]. subst l. cbn in I. repeat destruct I as [I|I]; try contradiction; injection I as <- <-; lia. }
  assert (W : widest (Struct [ex_float; ex_float]) 4).
  { split; [eexists; split; [now left|eexists; reflexivity]|].
    intros l k I [can E]. subst l. cbn in I. repeat destruct I as [I|I]; try contradiction; injection I as <- <-; lia. }
  split; [exact N|]. split; [|split; [|split; [|split] ] ].
  - apply (proj2 (concept_documented_iff (mksource true (Struct [ex_float; ex_float])) N eq_refl)). exists 4. reflexivity.
  - constructor. intros m [<-|[<-|[] ] ]; eexists; reflexivity.
  - split; [cbn; lia|]. intros k E. injection E as <-. split; [lia|reflexivity].
  - left. auto.
  - repeat split; vm_compute; reflexivity.
Qed.
