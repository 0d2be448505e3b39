(** struct_get returns the members in declaration order. *)
From Verif Require Import Base BaseFacts LaneProofs StructModel StructProofs StructGetModel.
From Coq Require Import ZifyBool ZifyNat.
Ltac Zify.zify_post_hook ::= idtac.

(** The table has the sizes 0 to 50 and lists x0, x1, ... *)
Lemma table_entry n : (n <= 50)%nat -> specialisation get_table n = Ok (seq 0 n).
Proof.
  intros Hn.
  assert (H : forallb (fun n => match specialisation get_table n with
                                | Ok l => if list_eq_dec Nat.eq_dec l (seq 0 n) then true else false
                                | Stop _ => false end) (seq 0 51) = true) by (vm_compute; reflexivity).
  rewrite forallb_forall in H. specialize (H n). rewrite in_seq in H. specialize (H ltac:(lia)).
  destruct (specialisation get_table n) as [l|]; [|discriminate].
  destruct (list_eq_dec _ l (seq 0 n)); [now subst|discriminate].
Qed.

Lemma table_end n : (50 < n)%nat -> specialisation get_table n = Stop SIllFormed.
Proof.
  intros Hn.
  assert (H : forall t, forallb (fun p => Nat.leb (fst p) 50) t = true -> specialisation t n = Stop SIllFormed).
  { induction t as [|[k l] t IH]; [reflexivity|]. cbn [forallb fst specialisation]. intros H.
    apply andb_prop in H. destruct H as [H1 H2]. apply Nat.leb_le in H1.
    destruct (Nat.eqb_spec k n); [lia|]. now apply IH. }
  apply H. vm_compute. reflexivity.
Qed.

Lemma seq_distinct : forall n s, distinct (seq s n) = true.
Proof.
  induction n as [|n IH]; intros s; [reflexivity|]. cbn [seq distinct]. rewrite IH, andb_true_r.
  apply negb_true_iff. apply not_true_is_false. intros H. apply existsb_exists in H.
  destruct H as (x & Hx & E). apply in_seq in Hx. apply Nat.eqb_eq in E. lia.
Qed.

Lemma name_value_seq {A} : forall (obj : list A) s i a, nth_error obj i = Some a ->
  name_value (combine (seq s (length obj)) obj) (s + i) = Ok a.
Proof.
  induction obj as [|b obj IH]; intros s i a H; [destruct i; discriminate|].
  cbn [length seq combine name_value]. destruct i as [|i].
  - cbn in H. injection H as ->. rewrite Nat.add_0_r, Nat.eqb_refl. reflexivity.
  - destruct (Nat.eqb_spec s (s + S i)); [lia|]. cbn in H.
    replace (s + S i)%nat with (S s + i)%nat by lia. now apply IH.
Qed.

Lemma values_seq {A} (obj : list A) : 
  mapR (name_value (combine (seq 0 (length obj)) obj)) (seq 0 (length obj)) = Ok obj.
Proof.
  apply mapR_iff. rewrite seq_length. split; [reflexivity|]. intros i x Hx.
  assert (Hi : (i < length obj)%nat).
  { rewrite <- (seq_length (length obj) 0). apply nth_error_Some. congruence. }
  destruct (nth_error obj i) as [a|] eqn:E; [|apply nth_error_None in E; lia].
  assert (x = i).
  { rewrite (nth_error_nth' _ 0%nat) in Hx by (rewrite seq_length; lia). rewrite seq_nth in Hx by lia. now injection Hx. }
  subst x. exists a. split; [|reflexivity]. now apply (name_value_seq obj 0 i a).
Qed.

Lemma bind_seq {A} (obj : list A) : bind_names (seq 0 (length obj)) obj = Ok (combine (seq 0 (length obj)) obj).
Proof. unfold bind_names. now rewrite seq_length, Nat.eqb_refl, seq_distinct. Qed.

Lemma d_to_tuple_members {A} (obj : list A) : (length obj <= 50)%nat -> d_to_tuple (length obj) obj = Ok obj.
Proof.
  intros H. unfold d_to_tuple. rewrite table_entry by assumption. cbn [bindR].
  destruct (Nat.eqb_spec (length obj) 0) as [E|_]; [now destruct obj|].
  rewrite bind_seq. cbn [bindR]. apply values_seq.
Qed.

Lemma d_get_members {A} (obj : list A) N : (length obj <= 50)%nat ->
  d_get (length obj) N obj = match nth_error obj N with Some a => Ok a | None => Stop SIllFormed end.
Proof.
  intros H. unfold d_get. rewrite table_entry by assumption. cbn [bindR].
  destruct (Nat.eqb_spec (length obj) 0) as [E|_]; [destruct obj; [now destruct N|discriminate]|].
  destruct (Nat.ltb_spec N (length obj)); cbn [negb].
  - rewrite bind_seq. cbn [bindR]. rewrite values_seq. reflexivity.
  - destruct (nth_error obj N) eqn:E; [|reflexivity].
    assert (N < length obj)%nat by (apply nth_error_Some; congruence). lia.
Qed.

(** ** With the size found by struct_size *)

Definition members_accepted (valid : Z -> bool) (a m : Z) : Prop :=
  0 <= a <= m /\ forall k, valid k = true <-> a <= k <= m.

Theorem struct_get_members {A} (obj : list A) valid sizeof fuel a N :
  0 < sizeof -> sizeof * 8 < two64 - 1 -> sizeof * 8 < Z.of_nat fuel -> Z.of_nat (length obj) <= sizeof * 8 ->
  members_accepted valid a (Z.of_nat (length obj)) -> (length obj <= 50)%nat ->
  (forall x, nth_error obj N = Some x -> struct_get (struct_size_v valid fuel sizeof) N obj = Ok x)
  /\ ((length obj <= N)%nat -> struct_get (struct_size_v valid fuel sizeof) N obj = Stop SIllFormed).
Proof.
  intros H0 H1 H2 H3 [Ha Hv] H50.
  destruct (struct_size_interval valid sizeof fuel a (Z.of_nat (length obj))) as (ps & E); try assumption.
  unfold struct_get. rewrite E. cbn [bindR]. rewrite Nat2Z.id. split.
  - intros x Hx. assert (N < length obj)%nat by (apply nth_error_Some; congruence).
    destruct (Z.ltb_spec (Z.of_nat N) (Z.of_nat (length obj))); [|lia].
    rewrite d_get_members by assumption. now rewrite Hx.
  - intros Hle. destruct (Z.ltb_spec (Z.of_nat N) (Z.of_nat (length obj))); [lia|reflexivity].
Qed.

Theorem to_tuple_members {A} (obj : list A) valid sizeof fuel a :
  0 < sizeof -> sizeof * 8 < two64 - 1 -> sizeof * 8 < Z.of_nat fuel -> Z.of_nat (length obj) <= sizeof * 8 ->
  members_accepted valid a (Z.of_nat (length obj)) -> (length obj <= 50)%nat ->
  to_tuple (struct_size_v valid fuel sizeof) obj = Ok obj.
Proof.
  intros H0 H1 H2 H3 [Ha Hv] H50.
  destruct (struct_size_interval valid sizeof fuel a (Z.of_nat (length obj))) as (ps & E); try assumption.
  unfold to_tuple. rewrite E. cbn [bindR]. rewrite Nat2Z.id. now apply d_to_tuple_members.
Qed.

Theorem to_pair_members {A} (obj : list A) valid sizeof fuel a r :
  0 < sizeof -> sizeof * 8 < two64 - 1 -> sizeof * 8 < Z.of_nat fuel -> Z.of_nat (length obj) <= sizeof * 8 ->
  members_accepted valid a (Z.of_nat (length obj)) ->
  (to_pair (struct_size_v valid fuel sizeof) obj = Ok r <-> obj = [fst r; snd r]).
Proof.
  intros H0 H1 H2 H3 [Ha Hv].
  destruct (struct_size_interval valid sizeof fuel a (Z.of_nat (length obj))) as (ps & E); try assumption.
  unfold to_pair. rewrite E. cbn [bindR].
  destruct (Z.eqb_spec (Z.of_nat (length obj)) 2) as [L|L].
  - destruct obj as [|x [|y [|z obj] ] ]; cbn [length] in L; try lia. cbn. split.
    + intros R. now injection R as <-.
    + destruct r as [u v]. cbn. intros R. injection R as -> ->. reflexivity.
  - split; [discriminate|]. intros ->. now cbn in L.
Qed.

Theorem struct_get_too_many {A} (obj : list A) valid sizeof fuel a N :
  0 < sizeof -> sizeof * 8 < two64 - 1 -> sizeof * 8 < Z.of_nat fuel -> Z.of_nat (length obj) <= sizeof * 8 ->
  members_accepted valid a (Z.of_nat (length obj)) -> (50 < length obj)%nat ->
  struct_get (struct_size_v valid fuel sizeof) N obj = Stop SIllFormed
  /\ to_tuple (struct_size_v valid fuel sizeof) obj = Stop SIllFormed.
Proof.
  intros H0 H1 H2 H3 [Ha Hv] H50.
  destruct (struct_size_interval valid sizeof fuel a (Z.of_nat (length obj))) as (ps & E); try assumption.
  unfold struct_get, to_tuple. rewrite E. cbn [bindR]. rewrite Nat2Z.id. unfold d_get, d_to_tuple.
  rewrite table_end by assumption. cbn [bindR]. split; [now destruct (_ <? _)|reflexivity].
Qed.
