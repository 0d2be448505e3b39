(** Concrete callables with state for C73, and witnesses. *)
From Verif Require Import Base ExecModel ExecSpec ExecExamples TransformModel TransformSpec TransformExamples ThrowModel
  CallsModel CallsSpec.
From Coq Require Import Permutation.

(** Numbers its calls: every lane of the n-th result is n.  Throws when it sees [bad]. *)
Definition numbering (bad st : Z) (ch : list (list Z)) : Z * option (list Z) :=
  (st + 1, if existsb (Z.eqb bad) (concat ch) then None else Some (map (fun _ => st) (hd [] ch))).
(** The callable of [ThrowExamples.tex_op], which has no state; it counts its calls. *)
Definition adding (bad st : Z) (ch : list (list Z)) : Z * option (list Z) :=
  (st + 1, if existsb (Z.eqb bad) (concat ch) then None else Some (ex_lift ex_sum ch)).

Lemma numbering_keeps bad : keeps_count (numbering bad).
Proof.
  intros st k ch r Hne HF. cbn. destruct (existsb _ _); [discriminate|]. intros E. injection E as <-.
  destruct ch; [contradiction|]. inversion HF. cbn. now rewrite map_length.
Qed.
Lemma adding_keeps bad : keeps_count (adding bad).
Proof.
  intros st k ch r Hne HF. cbn. destruct (existsb _ _); [discriminate|]. intros E. injection E as <-.
  now apply ex_lift_lanewise.
Qed.
Lemma adding_stateless bad : stateless (adding bad).
Proof. intros st st' ch. reflexivity. Qed.

(** Left to right, right to left. *)
Definition ltr (x : step) : list nat := seq 0 (t_n x).
Definition rtl (x : step) : list nat := rev (seq 0 (t_n x)).
Lemma ltr_any : any_order ltr.
Proof. intros x. apply Permutation_refl. Qed.
Lemma rtl_any : any_order rtl.
Proof. intros x. symmetry. apply Permutation_rev. Qed.

(** Trace, state, contents of [p, p+n), returned iterator, chunks the callable threw on. *)
Definition calls_obs (p n : Z) (r : res (ended (state Z Z) (list (list Z)) * option Z)) :=
  match r with
  | Ok (Returned s, d) => Some (map (hd []) (s_trace s), s_st s, load (s_mem s) p (Z.to_nat n), d, None)
  | Ok (Threw s ch, d) => Some (map (hd []) (s_trace s), s_st s, load (s_mem s) p (Z.to_nat n), d, Some ch)
  | Stop _ => None
  end.

Lemma ascending_refuted :
  exists c pol w first last dst (m : mem Z) order order' s s' r,
    target_ok c /\ c_ce c = false /\ policy_ok pol /\ width_ok w /\ range_ok first last
    /\ size_matches pol w first last /\ reaches_alignment c pol w dst (dst + (last - first))
    /\ keeps_count (numbering 0) /\ any_order order /\ any_order order'
    /\ Forall (fun p => mapped m p (p + (last - first))) [dst; first; 1000]
    /\ no_clobber dst (last - first) [first; 1000]
    /\ run_transform_in (numbering 0) order c pol w first last dst [1000] m 0 = Ok (Returned s, r)
    /\ run_transform_in (numbering 0) order' c pol w first last dst [1000] m 0 = Ok (Returned s', r)
    /\ s_mem s dst = Some 0 /\ s_mem s' dst = Some 1.
Proof.
  exists (ex_cfg 0 false false), (pol_unroll 2), 4, 0, 16, 2000, (ex_mem3 16), ltr, rtl. do 3 eexists.
  split; [now apply ex_target|]. split; [reflexivity|].
  split; [repeat split; first [reflexivity|discriminate]|].
  split; [unfold width_ok; lia|]. split; [unfold range_ok; lia|].
  split; [discriminate|]. split; [split; discriminate|].
  split; [apply numbering_keeps|]. split; [apply ltr_any|]. split; [apply rtl_any|].
  split; [apply ex_mem3_mapped; lia|]. split; [repeat constructor; lia|].
  split; [vm_compute; reflexivity|]. split; [vm_compute; reflexivity|]. split; vm_compute; reflexivity.
Qed.
