(** for_each with write-back and transform: exactly when they update the range and nothing else. *)
From Verif Require Import Base BaseFacts ExecModel ExecProofs ExecForEach ExecRun ExecSpec ExecThm ExecExamples
  ExactSpec ExecExact TransformModel TransformSpec TransformThm TransformExamples.

Lemma write_back_plain {T St} (f : St -> list (list T) -> St * list (list T)) (g : T -> T) c pol w first last m st :
  target_ok c -> c_ce c = false -> policy_ok pol -> plain pol -> width_ok w -> range_ok first last ->
  size_matches pol w first last -> lanewise g f -> mapped m first last ->
  exists s, run_for_each f c pol w true first last m st = Ok s
            /\ forall a, s_mem s a = map_range g m first last a.
Proof. intros. apply for_each_map; try assumption. now apply plain_reaches. Qed.

Lemma write_back_iff {T St} (f : St -> list (list T) -> St * list (list T)) (g : T -> T) c pol w first last m st :
  libstdcxx_target c -> c_ce c = false -> policy_ok pol -> width_ok w -> range_ok first last ->
  (last - first) * c_sz c < 2 ^ 64 -> size_matches pol w first last ->
  lanewise g f -> mapped m first last -> (forall a, ~ (first <= a < last) -> m a = None) ->
  ((exists s, run_for_each f c pol w true first last m st = Ok s
              /\ forall a, s_mem s a = map_range g m first last a)
     <-> first = last \/ ~ (aligns c pol w first last /\ no_aligned_address c w first last))
  /\ ((exists s, run_for_each f c pol w false first last m st = Ok s /\ forall a, s_mem s a = m a)
     <-> first = last \/ ~ (aligns c pol w first last /\ no_aligned_address c w first last)).
Proof.
  intros Ht Hce Hp Hw Hr H64 Hs Hg Hm Hno. assert (Hk := lanewise_keeps f g Hg). split.
  - rewrite <- (proj1 (for_each_inside_iff f c pol w true first last m st Ht Hce Hp Hw Hr H64 Hs Hk Hm Hno)).
    split; [intros (s & E & _); eauto|]. intros HOk.
    apply (proj1 (for_each_inside_iff f c pol w true first last m st Ht Hce Hp Hw Hr H64 Hs Hk Hm Hno)) in HOk.
    destruct (run_spec_map f g pol w first last m st _ Hg (proj1 Hr)
                (for_each_fit f c pol w true first last m st Ht Hce Hp Hw Hr H64 Hs Hk Hm HOk)) as (s & E & _ & A).
    eauto.
  - rewrite <- (proj1 (for_each_inside_iff f c pol w false first last m st Ht Hce Hp Hw Hr H64 Hs Hk Hm Hno)).
    split; [intros (s & E & _); eauto|]. intros HOk.
    apply (proj1 (for_each_inside_iff f c pol w false first last m st Ht Hce Hp Hw Hr H64 Hs Hk Hm Hno)) in HOk.
    destruct (run_spec_value f pol w first last m st _
                (for_each_fit f c pol w false first last m st Ht Hce Hp Hw Hr H64 Hs Hk Hm HOk)) as (s & E & _ & A).
    eauto.
Qed.

(** Everything is mapped and the range of two elements is overrun: the element behind it is changed
    and the first of the range is updated twice. *)
Lemma write_back_refuted :
  exists c pol w first last (g : Z -> Z) (m : mem Z) s x y z,
    target_ok c /\ c_ce c = false /\ policy_ok pol /\ width_ok w /\ range_ok first last
    /\ size_matches pol w first last
    /\ mapped m first last /\ (forall a, m a <> None) /\ first < last
    /\ run_for_each (fun st ch => (st, map (map g) ch)) c pol w true first last m 0 = Ok s
    /\ m first = Some x /\ s_mem s first = Some y /\ y <> g x
    /\ m last = Some z /\ s_mem s last = Some (g z) /\ g z <> z.
Proof.
  exists (ex_cfg 4 false false), pol_aligned, 8, 0, 2, (fun x => 2 * x), (fun a => Some (100 + a)).
  eexists _, _, _, _.
  split; [apply ex_target; reflexivity|]. split; [reflexivity|].
  split; [repeat split; first [reflexivity|discriminate]|].
  split; [unfold width_ok; lia|]. split; [unfold range_ok; lia|]. split; [intros E; discriminate|].
  split; [intros a Ha; now eexists|]. split; [discriminate|]. split; [lia|].
  split; [vm_compute; reflexivity|]. split; [vm_compute; reflexivity|].
  split; [vm_compute; reflexivity|]. split; [vm_compute; lia|].
  split; [vm_compute; reflexivity|]. split; [vm_compute; reflexivity|]. lia.
Qed.

Lemma transform_plain {T} (op : list T -> T) (opv : list (list T) -> list T)
      c pol w first last dst srcs2 (m : mem T) :
  target_ok c -> c_ce c = false -> policy_ok pol -> plain pol -> width_ok w -> range_ok first last ->
  size_matches pol w first last -> lanewise_op op opv ->
  Forall (fun p => mapped m p (p + (last - first))) (dst :: first :: srcs2) ->
  no_clobber dst (last - first) (first :: srcs2) ->
  exists m', run_transform opv c pol w first last dst srcs2 m = Ok (m', dst + (last - first))
             /\ transformed op (first :: srcs2) dst (last - first) m m'.
Proof. intros. apply transform_runtime; try assumption. now apply plain_reaches. Qed.

(** Everything is mapped: the element behind the output range is written and the returned iterator is
    eight elements behind the end. *)
Lemma transform_short_output_refuted :
  exists c pol w first last dst (m m' : mem Z) d,
    target_ok c /\ c_ce c = false /\ policy_ok pol /\ width_ok w /\ range_ok first last
    /\ size_matches pol w first last /\ (forall a, m a <> None)
    /\ no_clobber dst (last - first) [first; 1000] /\ lanewise_op ex_sum (ex_lift ex_sum)
    /\ run_transform (ex_lift ex_sum) c pol w first last dst [1000] m = Ok (m', d)
    /\ d = dst + (last - first) + 8 /\ m' (dst + (last - first)) <> m (dst + (last - first)).
Proof.
  exists (ex_cfg 4 false false), pol_aligned, 8, 0, 2, 2000, (fun a => Some (100 + a)).
  eexists _, _.
  split; [apply ex_target; reflexivity|]. split; [reflexivity|].
  split; [repeat split; first [reflexivity|discriminate]|].
  split; [unfold width_ok; lia|]. split; [unfold range_ok; lia|]. split; [intros E; discriminate|].
  split; [discriminate|]. split; [repeat constructor; lia|]. split; [apply ex_lift_lanewise|].
  split; [vm_compute; reflexivity|]. split; [reflexivity|]. vm_compute. discriminate.
Qed.
