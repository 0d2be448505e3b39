(** Concrete aggregates for simdize, and the property-level forms of its lemmas. *)
From Verif Require Import Base BaseFacts SimdizeModel SimdizeSpec SimdizeProofs SimdizeTypeModel SimdizeTypeSpec SimdizeTypeProofs.
Ltac Zify.zify_post_hook ::= idtac.

Theorem simdize_width t n : vectorizable_type t -> natives_ok t -> defaults_ok t -> 0 < n -> all_allow n t ->
  exists r, simdize t n = Ok r /\ simd_like n t r /\ simdize_size (lanes_tree r) = Ok n.
Proof.
  intros Hv Hn Hd Hp Ha. destruct (simdize_vectorizable t Hv Hn Hd) as [H _].
  destruct (proj1 (H n Hp) Ha) as (r & Er & Hr). exists r. split; [exact Er|]. split; [exact Hr|].
  now apply (simdize_then_size t).
Qed.

Theorem simdize_default t n : vectorizable_type t -> natives_ok t -> defaults_ok t -> widest t n ->
  simdize t 0 = simdize t n /\ (all_allow n t -> exists r, simdize t 0 = Ok r /\ simd_like n t r).
Proof.
  intros Hv Hn Hd Hw. destruct (simdize_vectorizable t Hv Hn Hd) as [H1 H2]. unfold simdize.
  rewrite (H2 n Hw). split; [reflexivity|]. apply H1. now apply (widest_pos t).
Qed.

Theorem simdize_same t n : (~ vectorizable_type t -> simdize t n = Ok Same)
  /\ (vectorizable_type t -> natives_ok t -> defaults_ok t -> 0 < n -> ~ all_allow n t -> simdize t n = Ok Same).
Proof.
  split; [apply simdize_unvectorizable|]. intros Hv Hn Hd Hp Ha.
  destruct (simdize_vectorizable t Hv Hn Hd) as [H _]. now apply H.
Qed.

(** A scalar with at most [m] lanes. *)
Definition ex_scalar (native m : Z) : leaf_type := Scalar native (fun n => (1 <=? n) && (n <=? m)).

(** struct { struct { double x; char y; } a; float b; }: native sizes [d], [c] and [d] + [d]; double and float
    have up to 32 lanes, char at least [c]. *)
Definition ex_nested (d c : Z) : tree leaf_type :=
  Struct [Struct [Leaf (ex_scalar d 32); Leaf (ex_scalar c (Z.max 32 c))]; Leaf (ex_scalar (d + d) 32)].

Lemma nested_vectorizable d c : vectorizable_type (ex_nested d c).
Proof. apply rec_vec_spec. reflexivity. Qed.

Lemma nested_natives d c : 0 < d -> 0 < c -> natives_ok (ex_nested d c).
Proof.
  intros Hd Hc l n Hl [can ->]. cbn in Hl. destruct Hl as [E|[E|[E|[] ] ] ]; injection E; intros; subst; lia.
Qed.

Lemma nested_instance :
  vectorizable_type (ex_nested 4 32) /\ natives_ok (ex_nested 4 32) /\ defaults_ok (ex_nested 4 32)
  /\ widest (ex_nested 4 32) 32 /\ all_allow 6 (ex_nested 4 32)
  /\ simdize (ex_nested 4 32) 6 = Ok (Tup 6 [Tup 6 [Simd 6; Simd 6]; Simd 6])
  /\ simdize (ex_nested 4 32) 0 = Ok (Tup 32 [Tup 32 [Simd 32; Simd 32]; Simd 32])
  /\ simdize (ex_nested 4 32) 33 = Ok Same
  /\ simdize (Struct [ex_nested 4 32; Leaf Opaque]) 4 = Ok Same
  /\ simdize (Struct [ex_nested 4 32; Struct []]) 4 = Ok Same.
Proof.
  split; [apply nested_vectorizable|]. split; [apply nested_natives; lia|].
  split; [|split; [|split; [|repeat split] ] ].
  - apply (simdize_wellformed_iff (ex_nested 4 32) 6); [apply nested_vectorizable|apply nested_natives; lia|].
    eexists. reflexivity.
  - split; [exists (ex_scalar 32 32); split; [right; now left|eexists; reflexivity]|].
    intros l n Hl [can ->]. cbn [ex_nested ex_scalar leaves flat_map app In] in Hl.
  destruct Hl as [E|[E|[E|[] ] ] ]; injection E; intros; subst; lia.
  - intros l Hl. cbn in Hl. destruct Hl as [<-|[<-|[<-|[] ] ] ]; eexists _, _; split; reflexivity.
Qed.

Lemma nested_default_refuted : exists t n, vectorizable_type t /\ natives_ok t /\ 0 < n /\ all_allow n t
  /\ simdize t n = Stop SIllFormed
  /\ exists u, inside u t /\ (exists r, simdize u n = Ok r /\ simd_like n u r) /\ simdize u 0 = Ok Same.
Proof.
  exists (ex_nested 8 64), 4. split; [apply nested_vectorizable|]. split; [apply nested_natives; lia|].
  split; [lia|]. split; [|split; [reflexivity|] ].
  - intros l Hl. cbn in Hl. destruct Hl as [<-|[<-|[<-|[] ] ] ]; eexists _, _; split; reflexivity.
  - eexists. split; [apply inside_here; now left|]. split; [|reflexivity].
    eexists. split; [reflexivity|]. apply sl_struct; [discriminate|]. repeat constructor.
Qed.
