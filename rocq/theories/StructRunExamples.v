(** Examples and counterexamples for for_each over structs (C50). *)
From Verif Require Import Base BaseFacts PermuteModel SimdizeModel SimdizeSpec SimdizeProofs
  ExecModel ExecSpec ExecExamples StructRunModel StructRunSpec StructRunProofs StructRunThm.

(** Words 0, 1, 2, ... at addresses 0, 1, 2, ... *)
Definition words (n : Z) : mem Z := fun a => if (0 <=? a) && (a <? n) then Some a else None.

(** sizeof 12, alignof 4. *)
Definition cfg12 : cfg := mkcfg 12 0 (fun _ => 4) false false.

(** Structs of three floats, of three ints, and not a template. *)
Definition kind_3f : skind := KVectorized (fun _ => env_3f).
Definition kind_3i : skind := KVectorized (fun _ => env_int).

(** A callable that counts its calls and adds 100 to every member, and one that does nothing. *)
Definition bump (st : Z) (ch : list (list (list Z))) : Z * list (list (list Z)) := (st + 1, map (map (map (Z.add 100))) ch).
Definition idle (st : Z) (ch : list (list (list Z))) : Z * list (list (list Z)) := (st + 1, ch).

Lemma bump_updates : updates_lanes (map (Z.add 100)) bump.
Proof.
  intros st ch. cbn [bump snd]. induction ch as [|o ch IH]; constructor; [|assumption]. split.
  - intros k n [H1 H2]. split; [now rewrite map_length|]. intros v Hv. apply in_map_iff in Hv as (u & <- & Hu).
    rewrite map_length. now apply H2.
  - intros i x [L H]. split; [now rewrite !map_length|]. intros j v Ej. rewrite nth_error_map in Ej.
    destruct (nth_error o j) as [u|] eqn:Eu; [|discriminate]. injection Ej as <-.
    rewrite !nth_error_map, (H j u Eu). reflexivity.
Qed.

Lemma idle_updates : updates_lanes (fun x => x) idle.
Proof. intros st ch. cbn [idle snd]. induction ch as [|o ch IH]; constructor; [|assumption]. split; auto. Qed.

Lemma words_mapped n k first last : 0 <= k * first -> k * last <= n -> structs_mapped (words n) k first last.
Proof. intros H1 H2 a Ha. unfold words. destruct (Z.leb_spec 0 a); destruct (Z.ltb_spec a n); cbn; try discriminate; lia. Qed.

Lemma cfg12_runs pol w first last : policy_ok pol -> width_ok w -> range_ok first last -> size_matches pol w first last ->
  runs_on cfg12 pol w first last.
Proof. intros. split; [split; cbn; [lia|intros; lia]|]. repeat (split; [assumption|]). discriminate. Qed.

(** What is observed of a run: the callable's state and the words. *)
Definition observed {St} (n : nat) (r : res (sstate Z St)) : option (St * option (list Z)) :=
  match r with Ok s => Some (ss_st s, load (ss_mem s) 0 n) | Stop _ => None end.

(** An idle callable moves the structs. *)
Lemma structs_moved : exists s, struct_for_each 0 idle kind_3f 3 cfg12 pol0 8 true 0 8 (words 24) 0 = Ok s
  /\ load (words 24) (3 * 1) 3 = Some [3; 4; 5] /\ load (ss_mem s) (3 * 1) 3 = Some [9; 10; 11].
Proof.
  destruct (struct_shuffles 0 idle (fun x => x) kind_3f 3 cfg12 pol0 0 8 (words 24) 0) as (s & E & H & _).
  - exact idle_updates.
  - repeat split.
  - reflexivity.
  - apply cfg12_runs; [now repeat split|split; lia|split; lia|discriminate].
  - now apply words_mapped.
  - exists s. split; [exact E|]. split; [reflexivity|]. destruct (H 1 ltac:(lia)) as (z & E1 & E2).
    vm_compute in E1. injection E1 as <-. exact E2.
Qed.
