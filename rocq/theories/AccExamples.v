(** Witnesses for C79. *)
From Verif Require Import Base ExecModel ExecSpec ExecExamples TransformModel ReduceModel TReduceModel
  TReduceSpec TReduceExamples ScheduleSpec OrderSpec OrderExamples AccSpec AccThm.
From Coq Require Import QArith Qabs Lqa.
#[local] Open Scope Z_scope.

(** The depth of the expression that vir::reduce computes. *)
Definition ex_depth (base : Z) (pol : policy) (w n : Z) : res nat :=
  bindR (reduce_alg (ex_cfg base false false) Comb (fun a => option_map Elem (ex_mem 0 n a)) pol w 0 n (Elem 0))
        (fun t => Ok (depth t)).

(** An addition whose result is too large by a sixteenth, in terms of quarters. *)
Definition ex_quarters (a : Z) : Q := a # 4.
Definition ex_add (a b : Z) : Z := a + b + (a + b) / 16.

Lemma ex_adds_up limit : adds_up ex_quarters (fun a => 0 <= a) ex_add (1 # 16) limit.
Proof.
  intros a b Ha Hb _. unfold ex_add. assert (0 <= (a + b) / 16) by (apply Z.div_pos; lia).
  split; [lia|]. unfold ex_quarters.
  assert (E1 : ((a + b + (a + b) / 16 # 4) - ((a # 4) + (b # 4)) == (a + b) / 16 # 4)%Q).
  { unfold Qeq, Qminus, Qplus, Qopp. cbn [Qnum Qden]. lia. }
  assert (E2 : ((a # 4) + (b # 4) == a + b # 4)%Q) by (unfold Qeq, Qplus; cbn [Qnum Qden]; lia).
  rewrite E1, E2. rewrite !Qabs_pos by (unfold Qle; cbn [Qnum Qden]; lia).
  unfold Qle, Qmult. cbn [Qnum Qden]. pose proof (Z.mul_div_le (a + b) 16 ltac:(lia)). lia.
Qed.
