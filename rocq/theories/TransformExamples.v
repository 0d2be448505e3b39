(** Concrete runs of transform. *)
From Verif Require Import Base BaseFacts ExecModel ExecSpec ExecThm ExecExamples
  TransformModel TransformSpec.

(** A lane-wise callable on any number of inputs. *)
Definition ex_lift (op : list Z -> Z) (chunks : list (list Z)) : list Z :=
  map (fun i => op (map (fun ch => nth i ch 0) chunks)) (seq 0 (length (hd [] chunks))).

Lemma ex_lift_lanewise op : lanewise_op op (ex_lift op).
Proof.
  intros k chunks Hne HF. destruct chunks as [|ch0 rest] eqn:Ec; [contradiction|]. rewrite <- Ec in *.
  assert (Hlen : length (hd [] chunks) = k) by (subst; inversion HF; subst; reflexivity).
  unfold ex_lift. rewrite map_length, seq_length. split; [exact Hlen|].
  intros i args Hargs.
  assert (Hi : (i < k)%nat).
  { rewrite <- Hlen. subst chunks. inversion Hargs as [|? ? ? ? H1 H2]; subst. cbn.
    apply nth_error_Some. congruence. }
  rewrite Hlen. rewrite nth_error_map.
  replace (nth_error (seq 0 k) i) with (Some i).
  2:{ symmetry. rewrite (nth_error_nth' _ 0%nat) by (now rewrite seq_length). now rewrite seq_nth. }
  cbn. do 2 f_equal. clear - Hargs. induction Hargs; [reflexivity|]. cbn. f_equal; [|assumption].
  apply nth_error_nth with (d := 0) in H. exact H.
Qed.

Definition ex_sum (l : list Z) : Z := fold_right Z.add 0 l.

(** Memory with n elements at 0 (x_i = 100+i), n at 1000 (y_i = 1100+i) and n at 2000. *)
Definition ex_mem3 (n : Z) : mem Z :=
  fun a => if (0 <=? a mod 1000) && (a mod 1000 <? n) && (0 <=? a) && (a <? 3000)
           then Some (100 + a) else None.

Lemma ex_mem3_mapped n : 0 <= n <= 1000 ->
  Forall (fun p => mapped (ex_mem3 n) p (p + n)) [2000; 0; 1000].
Proof.
  intros Hn. repeat constructor; intros a Ha; exists (100 + a); unfold ex_mem3;
    [replace (a mod 1000) with (a - 2000)
    |replace (a mod 1000) with a
    |replace (a mod 1000) with (a - 1000)];
    try (apply (Z.mod_unique _ _ 2); lia) || (apply (Z.mod_unique _ _ 0); lia)
        || (apply (Z.mod_unique _ _ 1); lia).
  all: repeat match goal with |- context [?x <=? ?y] => destruct (Z.leb_spec x y); [|lia]
              | |- context [?x <? ?y] => destruct (Z.ltb_spec x y); [|lia] end; reflexivity.
Qed.

Definition ex_tobs (p n : Z) (r : res (mem Z * Z)) : option (option (list Z) * Z) :=
  match r with Ok (m, d) => Some (load m p (Z.to_nat n), d) | Stop _ => None end.

Lemma transform_prefer_aligned_refuted :
  exists c pol w first last dst (m : mem Z),
    target_ok c /\ c_ce c = false /\ policy_ok pol /\ width_ok w /\ range_ok first last
    /\ p_match pol = false
    /\ Forall (fun p => mapped m p (p + (last - first))) [dst; first; 1000]
    /\ no_clobber dst (last - first) [first; 1000]
    /\ lanewise_op ex_sum (ex_lift ex_sum)
    /\ run_transform (ex_lift ex_sum) c pol w first last dst [1000] m = Stop SUB.
Proof.
  exists (ex_cfg 4 false false), pol_aligned, 8, 0, 2, 2000, (ex_mem3 2).
  split; [now apply ex_target|]. split; [reflexivity|]. split; [now repeat split|].
  split; [unfold width_ok; lia|]. split; [unfold range_ok; lia|]. split; [reflexivity|].
  split; [apply ex_mem3_mapped; lia|]. split; [repeat constructor; lia|].
  split; [apply ex_lift_lanewise|]. vm_compute. reflexivity.
Qed.
