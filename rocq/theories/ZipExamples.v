(** Concrete runs of transform over zip_views. *)
From Verif Require Import Base BaseFacts ExecModel ExecSpec ExecExamples TransformModel TransformSpec
  TransformExamples ZipModel ZipSpec ZipThm.

(** Distinguishes pairs from tuples: x - 2y for a pair, minus the sum for a tuple. *)
Definition ex_zop (a : zarg Z) : Z :=
  match a with ZPair x y => x - 2 * y | ZTuple l => - ex_sum l end.

Definition ex_zopv (a : zarg (list Z)) : list Z :=
  match a with
  | ZPair x y => ex_lift (fun l => nth 0 l 0 - 2 * nth 1 l 0) [x; y]
  | ZTuple l => ex_lift (fun l => - ex_sum l) l
  end.

Lemma ex_zop_lanewise : lanewise_zip ex_zop ex_zopv.
Proof.
  intros k a Hne Hw HF. destruct a as [x y|l]; cbn [components ex_zopv] in *.
  - destruct (ex_lift_lanewise (fun l => nth 0 l 0 - 2 * nth 1 l 0) k [x; y] Hne HF) as [Hl Hv].
    split; [exact Hl|]. intros i b Hb H2. rewrite (Hv i _ H2). f_equal.
    destruct b as [u v|l]; cbn [components] in H2; [reflexivity|].
    exfalso. apply Hb. inversion H2 as [|? ? ? ? _ H3]; subst. inversion H3 as [|? ? ? ? _ H4]; subst.
    inversion H4. reflexivity.
  - destruct (ex_lift_lanewise (fun l => - ex_sum l) k l Hne HF) as [Hl Hv].
    split; [exact Hl|]. intros i b Hb H2. rewrite (Hv i _ H2). f_equal.
    destruct b as [u v|l']; cbn [components] in H2; [|reflexivity].
    exfalso. apply Hw. inversion H2 as [|? ? ? ? _ H3]; subst. inversion H3 as [|? ? ? ? _ H4]; subst.
    inversion H4. reflexivity.
Qed.

Lemma empty_zip_refuted :
  exists c pol w rs dst (m : mem Z),
    c_ce c = false /\ target_ok c /\ plain pol /\ width_ok w /\ shortest rs 0
    /\ Forall (fun r => mapped m (z_begin r) (z_begin r + z_size r)) rs
    /\ lanewise_zip ex_zop ex_zopv
    /\ zip_transform ex_zopv c pol w rs dst m = Stop SUB.
Proof.
  exists (ex_cfg 4 false false), pol0, 8, [mkzrange 0 5; mkzrange 1000 0], 2000, (fun a => if (0 <=? a) && (a <? 5) then Some a else None).
  split; [reflexivity|]. split; [now apply ex_target|]. split; [now split|].
  split; [unfold width_ok; lia|].
  split; [split; [exists (mkzrange 1000 0); split; [right; now left|reflexivity]|
          intros r [<-|[<-|[] ] ]; cbn; lia]|].
  split.
  { constructor; [|constructor; [|constructor] ]; cbn; intros a Ha; [|lia]. exists a.
    destruct (Z.leb_spec 0 a); [|lia]. destruct (Z.ltb_spec a 5); [reflexivity|lia]. }
  split; [exact ex_zop_lanewise|]. vm_compute. reflexivity.
Qed.
