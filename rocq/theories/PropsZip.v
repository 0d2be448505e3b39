(** Property theorems C53: vir::transform of a zip_view. *)
From Verif Require Import Base ExecModel ExecSpec ExecExamples TransformModel TransformSpec
  TransformExamples ZipModel ZipSpec ZipThm ZipExamples.

(** C53 for views that are not empty, at run time and in constant evaluation; [n] is the size of the
    shortest range.  Missing: the empty view (below). *)
Theorem C53_zip_transform_partial :
  forall (T : Type) (op : zarg T -> T) (opv : zarg (list T) -> list T),
    lanewise_zip op opv ->
    forall c pol w rs dst (m : mem T) n,
    width_ok w -> policy_ok pol -> shortest rs n -> 0 < n < 2 ^ 64 -> size_matches pol w 0 n ->
    (c_ce c = true \/ (c_ce c = false /\ target_ok c /\ reaches_alignment c pol w dst (dst + n))) ->
    Forall (fun r => mapped m (z_begin r) (z_begin r + z_size r)) rs ->
    mapped m dst (dst + n) -> no_clobber dst n (map z_begin rs) ->
    exists m', zip_transform opv c pol w rs dst m = Ok (m', dst + n)
               /\ zip_transformed op rs dst n m m'.
Proof. exact @zip_nonempty. Qed.
Print Assumptions C53_zip_transform_partial.

(** Two ranges (a pair) of unequal size, then three (a tuple). *)
Example C53_zip_transform_instance :
  ex_tobs 2000 9 (zip_transform ex_zopv (ex_cfg 4 false false) pol0 4
                    [mkzrange 0 9; mkzrange 1000 6] 2000 (ex_mem3 9))
  = Some (Some [-2100; -2101; -2102; -2103; -2104; -2105; 2106; 2107; 2108], 2006)
  /\ ex_tobs 2000 3 (zip_transform ex_zopv (ex_cfg 4 false true) pol0 4
                    [mkzrange 0 9; mkzrange 1000 6; mkzrange 1 3] 2000 (ex_mem3 9))
     = Some (Some [-1301; -1304; -1307], 2003)
  /\ lanewise_zip ex_zop ex_zopv
  /\ shortest [mkzrange 0 9; mkzrange 1000 6] 6
  /\ no_clobber 2000 6 [0; 1000].
Proof.
  split; [vm_compute; reflexivity|]. split; [vm_compute; reflexivity|].
  split; [exact ex_zop_lanewise|].
  split; [split; [exists (mkzrange 1000 6); split; [right; now left|reflexivity]|
          intros r [<-|[<-|[] ] ]; cbn; lia]|].
  repeat constructor; lia.
Qed.

(** C53 is false of an empty view: the begin of every range is dereferenced before anything else. *)
Theorem C53_empty_zip_refuted :
  exists c pol w rs dst (m : mem Z),
    c_ce c = false /\ target_ok c /\ plain pol /\ width_ok w /\ shortest rs 0
    /\ Forall (fun r => mapped m (z_begin r) (z_begin r + z_size r)) rs
    /\ lanewise_zip ex_zop ex_zopv
    /\ zip_transform ex_zopv c pol w rs dst m = Stop SUB.
Proof. exact empty_zip_refuted. Qed.
Print Assumptions C53_empty_zip_refuted.

(** C53, the exact extent: an empty view does nothing precisely if the begin of every range happens to
    point to an object, otherwise the call is undefined. *)
Theorem C53_empty_zip_iff :
  forall (T : Type) (opv : zarg (list T) -> list T) c pol w rs dst (m : mem T), shortest rs 0 ->
    (zip_transform opv c pol w rs dst m = Ok (m, dst) <-> Forall (fun r => m (z_begin r) <> None) rs)
    /\ (zip_transform opv c pol w rs dst m = Stop SUB <-> Exists (fun r => m (z_begin r) = None) rs).
Proof. exact @zip_empty. Qed.
Print Assumptions C53_empty_zip_iff.

(** Two empty ranges in the middle of arrays are left alone, an empty one behind an array is not. *)
Example C53_empty_zip_instance :
  shortest [mkzrange 2 0; mkzrange 1002 0] 0
  /\ Forall (fun r => ex_mem3 9 (z_begin r) <> None) [mkzrange 2 0; mkzrange 1002 0]
  /\ ex_tobs 2000 1 (zip_transform ex_zopv (ex_cfg 4 false false) pol_aligned 8
                       [mkzrange 2 0; mkzrange 1002 0] 2000 (ex_mem3 9)) = Some (Some [2100], 2000)
  /\ zip_transform ex_zopv (ex_cfg 4 false false) pol_aligned 8
                       [mkzrange 2 0; mkzrange 1009 0] 2000 (ex_mem3 9) = Stop SUB.
Proof.
  split; [split; [exists (mkzrange 2 0); split; [now left|reflexivity]|
          intros r [<-|[<-|[] ] ]; cbn; lia]|].
  split; [repeat constructor; vm_compute; discriminate|]. split; vm_compute; reflexivity.
Qed.
