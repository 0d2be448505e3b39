(** A function object that numbers its calls, for C85. *)
From Verif Require Import Base ExecModel ExecSpec ExecExamples TransformModel TransformSpec TransformExamples ThrowModel
  CallsModel CallsSpec CallsExamples ReduceModel TReduceModel RCallsModel RThrowModel OwnStateModel.

(** [[n = 0](auto x) mutable { return decltype(x)(n++); }]: every lane of the n-th result is n. *)
Definition own_number {S : Type} (st : S * Z) (ch : list (list Z)) : (S * Z) * option (list Z) :=
  ((fst st, snd st + 1), Some (map (fun _ => snd st) (hd [] ch))).
Lemma own_number_keeps S : keeps_count (own_number (S := S)).
Proof.
  intros st k ch r Hne HF. cbn. intros E. injection E as <-.
  destruct ch; [contradiction|]. inversion HF. cbn. now rewrite map_length.
Qed.

(** Own state, contents of [p, p+n). *)
Definition own_obs (p n : Z) (r : res (ended (state Z (unit * Z)) (list (list Z)) * option Z)) :=
  match r with
  | Ok (Returned s, _) => Some (snd (s_st s), load (s_mem s) p (Z.to_nat n))
  | _ => None
  end.
Definition own_sum (s : nat) (a b : list Z) : nat * option (list Z) := (S s, Some (map2 Z.add a b)).
Definition own_scalar (s : nat) (x y : Z) : nat * option Z := (S s, Some (x + y)).

Lemma overloads_differ :
  exists c pol w first last dst (m : mem Z) order s s' r,
    target_ok c /\ c_ce c = false /\ policy_ok pol /\ width_ok w /\ range_ok first last
    /\ size_matches pol w first last /\ reaches_alignment c pol w dst (dst + (last - first))
    /\ keeps_count (own_number (S := unit)) /\ any_order order
    /\ Forall (fun p => mapped m p (p + (last - first))) [dst; first; 1000]
    /\ no_clobber dst (last - first) [first; 1000]
    /\ transform_object Ranges own_number order c pol w first last dst [1000] m (tt, 0) = Ok (Returned s, r)
    /\ transform_object Zipped own_number order c pol w first last dst [1000] m (tt, 0) = Ok (Returned s', r)
    /\ s_mem s (dst + 4) = Some 0 /\ s_mem s' (dst + 4) = Some 1.
Proof.
  exists (ex_cfg 0 false false), (pol_unroll 0), 4, 0, 8, 2000, (ex_mem3 8), ltr. do 3 eexists.
  split; [now apply ex_target|]. split; [reflexivity|].
  split; [repeat split; first [reflexivity|discriminate]|].
  split; [unfold width_ok; lia|]. split; [unfold range_ok; lia|].
  split; [discriminate|]. split; [split; discriminate|].
  split; [apply own_number_keeps|]. split; [apply ltr_any|].
  split; [apply ex_mem3_mapped; lia|]. split; [repeat constructor; lia|].
  split; [vm_compute; reflexivity|]. split; [vm_compute; reflexivity|]. split; vm_compute; reflexivity.
Qed.
