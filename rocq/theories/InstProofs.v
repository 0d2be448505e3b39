(** Proofs for C71. *)
From Verif Require Import Base ExecModel ExecSpec AcceptModel AcceptSpec AcceptProofs InstModel InstSpec.
#[local] Open Scope nat_scope.

Lemma in_table : forall line t s, In s (table_sites line t) -> exists e, In e t /\ s = (line, 1, Z.to_nat (fst e - snd e)).
Proof. intros line t s I. apply in_map_iff in I as (e & E & I). exists e. auto. Qed.

(** The widths of either table. *)
Definition small (n : nat) : bool := existsb (Nat.eqb n) [1; 2; 4; 8; 16; 32].

Lemma small_pow : forall n, small n = true <-> exists j, n = Nat.pow 2 j /\ n <= 32.
Proof.
  intros n. split.
  - intros H. apply existsb_exists in H as (m & I & E). apply Nat.eqb_eq in E. subst m.
    repeat (destruct I as [<-|I]); [| | | | | |destruct I].
    + exists 0; split; [reflexivity|lia].
    + exists 1; split; [reflexivity|lia].
    + exists 2; split; [reflexivity|lia].
    + exists 3; split; [reflexivity|lia].
    + exists 4; split; [reflexivity|lia].
    + exists 5; split; [reflexivity|lia].
  - intros (j & -> & B). do 6 (destruct j as [|j]; [reflexivity|]). exfalso. cbn [Nat.pow] in B.
    pose proof (pow_pos j). lia.
Qed.

Lemma prologue_widths : forallb (fun e => small (Z.to_nat (fst e - snd e))) prologue_table = true.
Proof. vm_compute. reflexivity. Qed.

Lemma epilogue_widths : forallb (fun e => small (Z.to_nat (fst e - snd e))) epilogue_table = true.
Proof. vm_compute. reflexivity. Qed.

Lemma epilogue_complete : forall n, small n = true -> exists e, In e epilogue_table /\ Z.to_nat (fst e - snd e) = n.
Proof.
  intros n H. apply existsb_exists in H as (m & I & E). apply Nat.eqb_eq in E. subst m.
  repeat (destruct I as [<-|I]); [| | | | | |destruct I].
  - exists (1, 0)%Z. split; [|reflexivity]. apply (nth_error_In _ 0). reflexivity.
  - exists (2, 0)%Z. split; [|reflexivity]. apply (nth_error_In _ 1). reflexivity.
  - exists (4, 0)%Z. split; [|reflexivity]. apply (nth_error_In _ 3). reflexivity.
  - exists (8, 0)%Z. split; [|reflexivity]. apply (nth_error_In _ 7). reflexivity.
  - exists (16, 0)%Z. split; [|reflexivity]. apply (nth_error_In _ 15). reflexivity.
  - exists (32, 0)%Z. split; [|reflexivity]. apply (nth_error_In _ 31). reflexivity.
Qed.

(** What an epilogue below [size] demands. *)
Definition demanded (size n : nat) : Prop := exists j, n = Nat.pow 2 j /\ (n <= 32 \/ n < size).

Lemma small_demanded : forall size n, small n = true -> demanded size n.
Proof. intros size n H. apply small_pow in H as (j & E & B). exists j. auto. Qed.

Lemma table_demanded : forall line t size s,
  forallb (fun e => small (Z.to_nat (fst e - snd e))) t = true -> In s (table_sites line t) ->
  snd (fst s) = 1 /\ demanded size (snd s).
Proof.
  intros line t size s F I. apply in_table in I as (e & I & ->). rewrite forallb_forall in F.
  split; [reflexivity|]. apply small_demanded. exact (F e I).
Qed.

(** The half of size0 is below it. *)
Definition halves (size0 j : nat) : Prop := Nat.pow 2 j < size0 /\ size0 <= 2 * Nat.pow 2 j.

Lemma halves_down : forall j, halves (Nat.pow 2 (S j)) j.
Proof. intros j. unfold halves. cbn. pose proof (pow_pos j). lia. Qed.

Lemma epilogue_sound : forall osize j size0 size s, halves size0 j -> size0 <= size ->
  In s (for_each_epilogue_sites osize size0 j) -> snd (fst s) = 1 /\ demanded size (snd s).
Proof.
  intros osize j. induction j as [|j IH]; intros size0 size s Hh L I; cbn [for_each_epilogue_sites] in I;
    apply in_app_iff in I as [I|I]; try (destruct (Nat.eqb size0 2); [|destruct I]; destruct I as [<-|[] ];
      split; [reflexivity|apply small_demanded; reflexivity]);
    apply in_app_iff in I as [I|I]; try (destruct (Nat.leb size0 4); [|destruct I];
      exact (table_demanded _ _ size s epilogue_widths I));
    apply in_app_iff in I as [I|I]; try (destruct (negb osize && Nat.leb size0 64); [|destruct I];
      exact (table_demanded _ _ size s epilogue_widths I));
    apply in_app_iff in I as [I|I].
  - destruct I as [<-|[] ]. split; [reflexivity|]. apply small_demanded. reflexivity.
  - destruct I.
  - destruct I as [<-|[] ]. split; [reflexivity|]. exists (S j). split; [reflexivity|].
    right. cbn [snd]. destruct Hh. lia.
  - apply (IH _ size s (halves_down j)); [destruct Hh; lia|exact I].
Qed.

Lemma epilogue_pow : forall osize j size0 i, i <= j -> exists line, In (line, 1, Nat.pow 2 i) (for_each_epilogue_sites osize size0 j).
Proof.
  intros osize j. induction j as [|j IH]; intros size0 i L; cbn [for_each_epilogue_sites].
  - exists 349. replace i with 0 by lia. do 3 (apply in_or_app; right). apply in_or_app. left. now left.
  - destruct (Nat.eq_dec i (S j)) as [->|N].
    + exists 349. do 3 (apply in_or_app; right). apply in_or_app. left. now left.
    + destruct (IH (Nat.pow 2 (S j)) i ltac:(lia)) as (line & I). exists line.
      do 4 (apply in_or_app; right). exact I.
Qed.

(** The recursion always arrives at a width the jump table is used for. *)
Lemma epilogue_small : forall osize j size0 n, halves size0 j -> small n = true ->
  exists line, In (line, 1, n) (for_each_epilogue_sites osize size0 j).
Proof.
  intros osize j. induction j as [|j IH]; intros size0 n Hh H; cbn [for_each_epilogue_sites].
  - exists 237. apply in_or_app. right. apply in_or_app. left.
    replace (Nat.leb size0 4) with true by (symmetry; apply Nat.leb_le; destruct Hh; cbn in *; lia).
    destruct (epilogue_complete n H) as (e & I & <-).
    apply (in_map (fun e => (237, 1, Z.to_nat (fst e - snd e))) _ _ I).
  - destruct (IH (Nat.pow 2 (S j)) n (halves_down j) H) as (line & I). exists line.
    do 4 (apply in_or_app; right). exact I.
Qed.

Lemma prologue_sound : forall osize k size s, Nat.pow 2 k <= size ->
  In s (for_each_prologue_sites osize k) -> snd (fst s) = 1 /\ demanded size (snd s).
Proof.
  intros osize k size s L I. apply in_flat_map in I as (j & J & I). apply in_seq in J.
  assert (D : demanded size (Nat.pow 2 j)).
  { exists j. split; [reflexivity|]. right. pose proof (Nat.pow_lt_mono_r 2 j k ltac:(lia) ltac:(lia)). lia. }
  cbv zeta in I. apply in_app_iff in I as [I|I].
  { destruct (Nat.eqb _ 2); [|destruct I]. destruct I as [<-|[] ]. auto. }
  apply in_app_iff in I as [I|I].
  - destruct (negb osize && _ && _); [|destruct I]. exact (table_demanded _ _ size s prologue_widths I).
  - destruct I as [<-|[] ]. auto.
Qed.

Lemma half_log_halves : forall size, 1 < size -> halves size (half_log size).
Proof. intros size H. exact (half_log_bounds size H). Qed.

(** The widths below size are those up to its half. *)
Lemma below : forall size i, 1 < size -> Nat.pow 2 i < size -> i <= half_log size.
Proof.
  intros size i H L. destruct (half_log_bounds size H) as [_ B].
  destruct (Nat.le_gt_cases i (half_log size)) as [|G]; [assumption|].
  pose proof (Nat.pow_le_mono_r 2 (S (half_log size)) i ltac:(lia) ltac:(lia)) as P. cbn [Nat.pow] in P. lia.
Qed.

(** All the calls for_each is instantiated with. *)
Lemma for_each_calls : forall osize c k n, policy_fits c ->
  ((exists line, In (line, k, n) (for_each_sites osize c))
   <-> (n = c_size c /\ (k = 1 \/ (1 < c_unroll c /\ k = c_unroll c)))
       \/ (1 < c_size c /\ k = 1 /\ demanded (c_size c) n)).
Proof.
  intros osize c k n (S0 & U0 & P0). unfold for_each_sites. split.
  - intros (line & I). cbn [app] in I. destruct I as [I|I]; [inversion I; auto|].
    assert (E : forall b : bool, In (line, k, n) (if b && Nat.ltb 1 (c_size c)
                  then for_each_epilogue_sites osize (c_size c) (half_log (c_size c)) else []) ->
                1 < c_size c /\ k = 1 /\ demanded (c_size c) n).
    { intros b J. destruct b; [|destruct J]. destruct (Nat.ltb 1 (c_size c)) eqn:N; [|destruct J].
      apply Nat.ltb_lt in N. split; [exact N|].
      exact (epilogue_sound _ _ _ (c_size c) (line, k, n) (half_log_halves _ N) (le_n _) J). }
    apply in_app_iff in I as [I|I]; [right; exact (E true I)|].
    apply in_app_iff in I as [I|I].
    { destruct (c_prologue c) as [p|] eqn:P; [|destruct I]. destruct (P0 p eq_refl) as [A B].
      right. split.
      - pose proof (Nat.pow_le_mono_r 2 1 p ltac:(lia) ltac:(lia)) as Q. cbn in Q. lia.
      - exact (prologue_sound _ _ (c_size c) (line, k, n) B I). }
    apply in_app_iff in I as [I|I].
    { destruct (Nat.ltb 1 (c_unroll c)) eqn:U; [|destruct I]. apply Nat.ltb_lt in U.
      destruct I as [I|[] ]. inversion I. auto. }
    destruct I as [I|I]; [inversion I; auto|right; exact (E _ I)].
  - intros [[-> [->|[U ->] ] ]|(N & -> & D)].
    + exists 1134. now left.
    + exists 1157. cbn [app]. right. apply in_or_app. right. apply in_or_app. right. apply in_or_app. left.
      apply Nat.ltb_lt in U. rewrite U. now left.
    + assert (X : exists line, In (line, 1, n) (for_each_epilogue_sites osize (c_size c) (half_log (c_size c)))).
      { destruct D as (j & -> & [B|B]).
        - apply epilogue_small; [exact (half_log_halves _ N)|]. apply small_pow. eauto.
        - apply epilogue_pow. exact (below _ _ N B). }
      destruct X as (line & X). exists line. cbn [app]. right. apply in_or_app. left.
      apply Nat.ltb_lt in N. rewrite N. exact X.
Qed.

Lemma all_sites : forall (P : nat -> nat -> bool) (s : list call_site),
  forallb (fun s => P (snd (fst s)) (snd s)) s = true <-> (forall k n, (exists line, In (line, k, n) s) -> P k n = true).
Proof.
  intros P s. rewrite forallb_forall. split.
  - intros H k n (line & I). exact (H _ I).
  - intros H [[line k] n] I. apply (H k n). eauto.
Qed.

Lemma for_each_iff : forall osize c f, policy_fits c ->
  (for_each_compiles osize c f = true
   <-> f 1 (c_size c) = true /\ (1 < c_unroll c -> f (c_unroll c) (c_size c) = true)
       /\ (1 < c_size c -> forall j, Nat.pow 2 j <= 32 \/ Nat.pow 2 j < c_size c -> f 1 (Nat.pow 2 j) = true)).
Proof.
  intros osize c f F. unfold for_each_compiles. rewrite all_sites. split.
  - intros H. split; [|split].
    + apply H, (for_each_calls osize c _ _ F). auto.
    + intros U. apply H, (for_each_calls osize c _ _ F). auto.
    + intros N j B. apply H, (for_each_calls osize c _ _ F). right. split; [exact N|split; [reflexivity|] ].
      exists j. auto.
  - intros (A & B & D) k n I. apply (for_each_calls osize c _ _ F) in I.
    destruct I as [[-> [->|[U ->] ] ]|(N & -> & j & -> & L)]; auto.
Qed.

Lemma count_if_iff : forall osize c pred, policy_fits c ->
  (count_if_compiles osize c pred = true
   <-> pred (c_size c) = true
       /\ (1 < c_size c -> forall j, Nat.pow 2 j <= 32 \/ Nat.pow 2 j < c_size c -> pred (Nat.pow 2 j) = true)).
Proof.
  intros osize c pred F.
  change (count_if_compiles osize c pred) with (for_each_compiles osize c (fun _ => pred)).
  rewrite (for_each_iff osize c _ F). tauto.
Qed.

(** ** transform *)

Lemma binds_widths : forall p t ok n, binds p t (of_widths t ok) n = ok n.
Proof.
  intros p t ok n. unfold binds, of_widths. destruct (ok n); [|reflexivity]. apply converts_refl.
Qed.

Lemma transform_epilogue_iff : forall p t ok j,
  well_formed (transform_epilogue p t (of_widths t ok) j) = true <-> (forall i, i <= j -> ok (Nat.pow 2 i) = true).
Proof.
  intros p t ok j. induction j as [|j IH]; cbn [transform_epilogue well_formed forallb snd];
    rewrite !binds_widths.
  - split.
    + intros H i L. replace i with 0 by lia. now apply andb_true_iff in H as [H _].
    + intros H. change 1 with (Nat.pow 2 0). now rewrite (H 0 (le_n _)).
  - rewrite andb_true_iff. change (forallb snd ?l) with (well_formed l). rewrite IH. split.
    + intros [A B] i L. destruct (Nat.eq_dec i (S j)) as [->|N]; [exact A|apply B; lia].
    + intros H. split; [apply H; lia|]. intros i L. apply H. lia.
Qed.

Lemma transform_widths_iff : forall p t ok c, policy_fits c ->
  (well_formed (transform_sites p t (of_widths t ok) c) = true
   <-> ok (c_size c) = true /\ ok 1 = true
       /\ (forall k j, c_prologue c = Some k -> j < k -> ok (Nat.pow 2 j) = true)
       /\ (c_matching c = false -> forall j, Nat.pow 2 j < c_size c -> ok (Nat.pow 2 j) = true)).
Proof.
  intros p t ok c (S0 & _ & P0). unfold transform_sites. rewrite !wf_app.
  assert (A : well_formed [(744, c_size c, binds p t (of_widths t ok) (c_size c)); (750, 1, binds p t (of_widths t ok) 1)]
              = true <-> ok (c_size c) = true /\ ok 1 = true).
  { cbn [well_formed forallb snd]. rewrite !binds_widths, andb_true_r. apply andb_true_iff. }
  assert (B : well_formed (match c_prologue c with Some k => transform_prologue p t (of_widths t ok) k | None => [] end)
              = true <-> (forall k j, c_prologue c = Some k -> j < k -> ok (Nat.pow 2 j) = true)).
  { destruct (c_prologue c) as [k|]; [|split; [discriminate|reflexivity] ]. split.
    - intros H k' j E L. inversion E; subst k'. rewrite wf_in in H.
      assert (I : In (657, Nat.pow 2 j, binds p t (of_widths t ok) (Nat.pow 2 j)) (transform_prologue p t (of_widths t ok) k)).
      { apply (in_map (fun j => (657, Nat.pow 2 j, binds p t (of_widths t ok) (Nat.pow 2 j)))). apply in_seq. lia. }
      apply H in I. now rewrite binds_widths in I.
    - intros H. apply wf_in. intros l n b I. apply in_map_iff in I as (j & E & J). apply in_seq in J.
      inversion E; subst. rewrite binds_widths. apply (H k j eq_refl). lia. }
  assert (C : well_formed (if Nat.ltb 1 (c_size c) && negb (c_matching c)
                           then transform_epilogue p t (of_widths t ok) (half_log (c_size c)) else []) = true
              <-> (c_matching c = false -> 1 < c_size c -> forall i, Nat.pow 2 i < c_size c -> ok (Nat.pow 2 i) = true)).
  { destruct (Nat.ltb 1 (c_size c)) eqn:N.
    - apply Nat.ltb_lt in N. destruct (c_matching c); cbn [andb negb]; [split; [discriminate|reflexivity]|].
      rewrite transform_epilogue_iff. destruct (half_log_bounds _ N) as [Q _]. split.
      + intros H _ _ i L. apply H. exact (below _ _ N L).
      + intros H i L. apply H; [reflexivity|exact N|].
        pose proof (Nat.pow_le_mono_r 2 i (half_log (c_size c)) ltac:(lia) L). lia.
    - apply Nat.ltb_ge in N. split; [intros _ _ X; lia|reflexivity]. }
  rewrite A, B, C. split.
  - intros ([H1 H2] & H3 & _ & _ & H5). repeat split; auto.
    intros M j L. destruct (Nat.eq_dec (c_size c) 1) as [E|E]; [|apply H5; auto; lia].
    rewrite E in L. destruct j; [exact H2|]. pose proof (pow_pos j). cbn in L. lia.
  - intros (H1 & H2 & H3 & H4). repeat split; auto.
    + destruct (Nat.ltb 1 (c_unroll c)); cbn [well_formed forallb snd]; now rewrite ?binds_widths, ?H1.
    + cbn [well_formed forallb snd]. now rewrite binds_widths, H1.
Qed.

(** ** transform_reduce *)

Section reduce.
  Variables (p : platform) (t : elt) (ok1 ok2 : nat -> bool) (el : bool).
  Let top := of_widths t ok1.
  Let op := reduce_of_widths t ok2 el.

  Lemma op_simd : forall n, op (Simd t n) (Simd t n) = if ok2 n then Some (Simd t n) else None.
  Proof. intros n. unfold op, reduce_of_widths. now rewrite elt_eqb_refl, Nat.eqb_refl. Qed.

  Lemma op_elem : op (Elem t) (Elem t) = if el then Some (Elem t) else None.
  Proof. unfold op, reduce_of_widths. rewrite elt_eqb_refl, !andb_true_r. reflexivity. Qed.

  Lemma acc_widths : forall n, accumulate t op n (Some (Simd t n)) = if ok2 n then Some (Simd t n) else None.
  Proof. intros n. apply op_simd. Qed.

  Lemma init_acc : forall n, initialises p (accumulate t op n (Some (Simd t n))) (Simd t n) = ok2 n.
  Proof. intros n. rewrite acc_widths. destruct (ok2 n); [apply init_same|reflexivity]. Qed.

  Lemma sub_acc : forall n, subscriptable (accumulate t op n (Some (Simd t n))) = ok2 n.
  Proof. intros n. rewrite acc_widths. destruct (ok2 n); reflexivity. Qed.

  Lemma init_top : forall n, initialises p (top n) (Simd t n) = ok1 n.
  Proof. intros n. exact (binds_widths p t ok1 n). Qed.

  Lemma init_acc_top : forall n, initialises p (accumulate t op n (top n)) (Simd t n) = ok1 n && ok2 n.
  Proof. intros n. unfold top, of_widths. destruct (ok1 n); [apply init_acc|reflexivity]. Qed.

  Lemma reduce_ok_el : forall fuel n, reduce_ok p op fuel n t = true -> el = true.
  Proof.
    intros fuel. induction fuel as [|fuel IH]; intros n H; [discriminate|]. cbn [reduce_ok] in H.
    destruct (Nat.ltb 3 n).
    - rewrite op_simd in H. destruct (ok2 _); [|discriminate]. apply andb_true_iff in H as [H _].
      apply andb_true_iff in H as [_ H]. exact (IH _ H).
    - rewrite op_elem in H. destruct el; [reflexivity|discriminate].
  Qed.

  (** Enough: the elements, and the powers of two below. *)
  Lemma reduce_ok_enough : el = true -> forall fuel n, 0 < n <= fuel ->
    (forall j, Nat.pow 2 j < n -> ok2 (Nat.pow 2 j) = true) -> reduce_ok p op fuel n t = true.
  Proof.
    intros E fuel. induction fuel as [|fuel IH]; intros n B H; [lia|]. cbn [reduce_ok].
    destruct (Nat.ltb 3 n) eqn:C.
    - apply Nat.ltb_lt in C. destruct (half_bounds n C) as [P Q]. rewrite op_simd, H by lia.
      rewrite Nat.eqb_refl, IH; [|lia|intros j L; apply H; lia]. cbn [andb].
      destruct (Nat.eqb _ 0) eqn:Z; [reflexivity|]. apply Nat.eqb_neq in Z.
      rewrite IH; [|lia|intros j L; apply H; lia]. rewrite op_elem, E. reflexivity.
    - rewrite op_elem, E. reflexivity.
  Qed.

  Lemma finish_el : forall n, finish p t op n = true -> el = true /\ ok2 1 = true.
  Proof.
    intros n H. unfold finish in H. rewrite sub_acc in H. apply andb_true_iff in H as [H1 H2].
    split; [|exact H2]. cbn in H1. destruct (reduce_ok p op n n t) eqn:R; [|discriminate].
    exact (reduce_ok_el n n R).
  Qed.

  Lemma epilogue2_widths : forall j, well_formed (reduce_epilogue2 p t top op j) = true ->
    forall i, i <= j -> ok2 (Nat.pow 2 i) = true.
  Proof.
    intros j. induction j as [|j IH]; intros H i L; cbn [reduce_epilogue2] in H;
      apply andb_true_iff in H as [H1 H2]; cbn [snd] in H1; rewrite init_acc_top in H1;
      apply andb_true_iff in H1 as [_ H1].
    - replace i with 0 by lia. exact H1.
    - destruct (Nat.eq_dec i (S j)) as [->|N]; [exact H1|].
      apply wf_app in H2 as [_ H2]. apply (IH H2). lia.
  Qed.

  Lemma epilogue1_widths : forall j, well_formed (reduce_epilogue1 p t top op j) = true ->
    forall i, i <= j -> ok1 (Nat.pow 2 i) = true.
  Proof.
    intros j. induction j as [|j IH]; intros H i L; cbn [reduce_epilogue1] in H;
      apply andb_true_iff in H as [H1 H2]; cbn [snd] in H1; rewrite init_top in H1.
    - replace i with 0 by lia. exact H1.
    - destruct (Nat.eq_dec i (S j)) as [->|N]; [exact H1|].
      apply wf_app in H2 as [_ H2]. apply wf_app in H2 as [_ H2]. apply (IH H2). lia.
  Qed.

  Hypothesis E : el = true.

  Lemma finish_enough : forall n, 0 < n -> (forall j, Nat.pow 2 j <= n -> ok2 (Nat.pow 2 j) = true) ->
    finish p t op n = true.
  Proof.
    intros n N H. unfold finish. pose proof (H 0 N) as H0. cbn [Nat.pow] in H0. rewrite sub_acc, H0. cbn [reduce_of].
    rewrite reduce_ok_enough; [reflexivity|exact E|lia|]. intros j L. apply H. lia.
  Qed.

  Lemma epilogue2_enough : forall j, (forall i, i <= j -> ok1 (Nat.pow 2 i) = true /\ ok2 (Nat.pow 2 i) = true) ->
    well_formed (reduce_epilogue2 p t top op j) = true.
  Proof.
    intros j. induction j as [|j IH]; intros H; cbn [reduce_epilogue2 well_formed forallb snd app].
    - rewrite init_acc_top, sub_acc. destruct (H 0 (le_n _)) as [P Q]. cbn [Nat.pow] in *. now rewrite P, Q.
    - rewrite init_acc_top, init_acc. destruct (H (S j) (le_n _)) as [-> ->].
      destruct (H j ltac:(lia)) as [_ ->]. rewrite finish_enough.
      + cbn [andb]. apply IH. intros i L. apply H. lia.
      + apply pow_pos.
      + intros i L. apply H. apply (Nat.pow_le_mono_r_iff 2); [lia|exact L].
  Qed.

  Lemma epilogue1_enough : forall j, (forall i, i <= j -> ok1 (Nat.pow 2 i) = true /\ ok2 (Nat.pow 2 i) = true) ->
    well_formed (reduce_epilogue1 p t top op j) = true.
  Proof.
    intros j. induction j as [|j IH]; intros H; cbn [reduce_epilogue1 well_formed forallb snd app].
    - rewrite init_top, sub_acc. destruct (H 0 (le_n _)) as [P Q]. cbn [Nat.pow] in *. now rewrite P, Q.
    - rewrite init_top, init_acc. destruct (H (S j) (le_n _)) as [-> A].
      destruct (H j ltac:(lia)) as [_ ->]. rewrite finish_enough.
      + cbn [andb]. apply wf_app. split; [apply epilogue2_enough|apply IH]; intros i L; apply H; lia.
      + apply pow_pos.
      + intros i L. apply H. apply (Nat.pow_le_mono_r_iff 2); [lia|exact L].
  Qed.

  Lemma prologue_enough : forall k, (forall i, i <= k -> ok1 (Nat.pow 2 i) = true /\ ok2 (Nat.pow 2 i) = true) ->
    well_formed (reduce_prologue p t top op k) = true.
  Proof.
    intros k H. apply wf_in. intros l n b I. apply in_flat_map in I as (j & J & I). apply in_seq in J.
    cbv zeta in I. rewrite init_acc in I.
    destruct (H 0 ltac:(lia)) as [_ H0]. cbn [Nat.pow] in H0. rewrite H0 in I.
    unfold top, of_widths in I. destruct (H j ltac:(lia)) as [Hj _]. rewrite Hj in I. cbn [reduce_of] in I.
    rewrite reduce_ok_enough in I; [|exact E|pose proof (pow_pos j); lia|].
    - cbn [initialises converts] in I.
      destruct I as [I|[I|[] ] ]; inversion I; [|reflexivity].
      unfold ValueModel.value_preserving_or_int. now rewrite elt_eqb_refl.
    - intros i L. apply H. apply (Nat.pow_lt_mono_r_iff 2) in L; lia.
  Qed.
End reduce.

Lemma transform_reduce_widths_iff : forall p t ok1 ok2 el c, policy_fits c ->
  (well_formed (transform_reduce_sites p t (of_widths t ok1) (reduce_of_widths t ok2 el) c) = true
   <-> ok1 (c_size c) = true /\ ok2 (c_size c) = true /\ ok1 1 = true /\ ok2 1 = true
       /\ (forall j, Nat.pow 2 j < c_size c -> ok1 (Nat.pow 2 j) = true /\ ok2 (Nat.pow 2 j) = true)
       /\ (1 < c_size c -> el = true)).
Proof.
  intros p t ok1 ok2 el c (S0 & U0 & P0). unfold transform_reduce_sites. split.
  - intros H. apply wf_app in H as [H1 H]. apply wf_app in H as [_ H]. apply wf_app in H as [_ H].
    apply wf_app in H as [H2 H].
    cbn [well_formed forallb snd] in H1, H2. rewrite init_top, init_acc in H1. rewrite init_top, init_acc_top in H2.
    apply andb_true_iff in H1 as [A1 H1]. apply andb_true_iff in H1 as [A2 _].
    apply andb_true_iff in H2 as [A3 H2]. apply andb_true_iff in H2 as [H2 _]. apply andb_true_iff in H2 as [_ A4].
    do 4 (split; [assumption|]).
    destruct (Nat.eqb_spec (c_size c) 1) as [Q|Q].
    + split; [|lia]. intros j L. rewrite Q in L. pose proof (pow_pos j). lia.
    + assert (N : 1 < c_size c) by lia.
      apply wf_app in H as [F H]. apply wf_app in H as [_ H]. apply wf_app in H as [H3 H4]. split.
      * intros j L. pose proof (below _ _ N L) as B.
        split; [exact (epilogue1_widths p t ok1 ok2 el _ H4 j B)|exact (epilogue2_widths p t ok1 ok2 el _ H3 j B)].
      * intros _. cbn [well_formed forallb snd] in F. apply andb_true_iff in F as [F _].
        now apply finish_el in F as [F _].
  - intros (A1 & A2 & A3 & A4 & W & T).
    assert (W' : forall j, Nat.pow 2 j <= c_size c -> ok1 (Nat.pow 2 j) = true /\ ok2 (Nat.pow 2 j) = true).
    { intros j L. destruct (Nat.eq_dec (Nat.pow 2 j) (c_size c)) as [->|Q]; [auto|apply W; lia]. }
    apply wf_app. split.
    { cbn [well_formed forallb snd]. now rewrite init_top, init_acc, A3, A4. }
    apply wf_app. split.
    { destruct (c_prologue c) as [k|]; [|reflexivity]. destruct (P0 k eq_refl) as [K L].
      assert (N : 1 < c_size c) by (pose proof (Nat.pow_le_mono_r 2 1 k ltac:(lia) ltac:(lia)) as Q; cbn in Q; lia).
      apply prologue_enough; [exact (T N)|]. intros i B. apply W'.
      pose proof (Nat.pow_le_mono_r 2 i k ltac:(lia) B). lia. }
    apply wf_app. split.
    { destruct (Nat.ltb 1 (c_unroll c)); [|reflexivity]. cbn [well_formed forallb snd].
      rewrite init_top, init_acc_top, init_acc, A1, A2. unfold of_widths. rewrite A1. cbn.
      now rewrite elt_eqb_refl, Nat.eqb_refl. }
    apply wf_app. split.
    { cbn [well_formed forallb snd]. now rewrite init_top, init_acc_top, A1, A2. }
    destruct (Nat.eqb_spec (c_size c) 1) as [Q|Q].
    { cbn [well_formed forallb snd]. now rewrite sub_acc, A4. }
    assert (N : 1 < c_size c) by lia. specialize (T N). destruct (half_log_bounds _ N) as [B1 B2].
    assert (W2 : forall i, i <= half_log (c_size c) -> ok1 (Nat.pow 2 i) = true /\ ok2 (Nat.pow 2 i) = true).
    { intros i B. apply W. pose proof (Nat.pow_le_mono_r 2 i _ ltac:(lia) B). lia. }
    apply wf_app. split; [|apply wf_app; split].
    + cbn [well_formed forallb snd]. rewrite finish_enough; [reflexivity|exact T|lia|]. intros j L. now apply W'.
    + destruct (Nat.eqb _ _); cbn [well_formed forallb snd].
      * rewrite init_acc. destruct (W2 _ (le_n _)) as [_ ->]. reflexivity.
      * rewrite init_acc, A4. cbn [reduce_of].
        rewrite reduce_ok_enough; [reflexivity|exact T|lia|]. intros j L. apply W. lia.
    + apply wf_app. split; [apply epilogue2_enough|apply epilogue1_enough]; assumption.
Qed.

(** ** Calls made at run time *)

Lemma shapes_announced : forall {T} (c : config) (tr : list (list (list T))),
  0 < c_unroll c -> c_matching c = false -> shapes_ok (c_size c) (c_unroll c) tr ->
  Forall (fun chunks => exists n, announced c (length chunks) n /\ Forall (fun v => length v = n) chunks) tr.
Proof.
  intros T c tr U M (pre & a & b & post & E & _ & _ & B & A). apply Forall_forall. intros chunks I.
  apply (in_map (map (@length T))) in I. rewrite E in I.
  assert (R : forall n k, map (@length T) chunks = repeat n k -> length chunks = k /\ Forall (fun v => length v = n) chunks).
  { intros n k Q. split.
    - apply (f_equal (@length nat)) in Q. now rewrite map_length, repeat_length in Q.
    - apply Forall_forall. intros v V. apply (in_map (@length T)) in V. rewrite Q in V. now apply repeat_spec in V. }
  rewrite Forall_forall in B.
  assert (P : forall l, (forall e, In e l -> In e (pre ++ post)) ->
    In (map (@length T) chunks) (map (fun e => [Nat.pow 2 e]) l) ->
    exists n, announced c (length chunks) n /\ Forall (fun v => length v = n) chunks).
  { intros l S J. apply in_map_iff in J as (e & Q & J). symmetry in Q. change [Nat.pow 2 e] with (repeat (Nat.pow 2 e) 1) in Q.
    apply R in Q as [Q1 Q2]. exists (Nat.pow 2 e). split; [|exact Q2]. right. rewrite Q1.
    split; [exact M|split; [reflexivity|split; [exact (B e (S e J))|eauto] ] ]. }
  apply in_app_iff in I as [I|I]; [apply (P pre); [intros e X; apply in_or_app; auto|exact I]|].
  apply in_app_iff in I as [I|I].
  { apply repeat_spec, R in I as [Q1 Q2]. exists (c_size c). split; [|exact Q2]. left. rewrite Q1. auto. }
  apply in_app_iff in I as [I|I].
  { apply repeat_spec in I. apply (R _ 1) in I as [Q1 Q2]. exists (c_size c). split; [|exact Q2]. left. rewrite Q1. auto. }
  apply (P post); [intros e X; apply in_or_app; auto|exact I].
Qed.

(** ** Is what is announced enough? *)

(** The callables that take nothing else. *)
Definition only_announced (c : config) (k n : nat) : bool :=
  (Nat.eqb n (c_size c) && (Nat.eqb k 1 || Nat.eqb k (c_unroll c)))
  || (negb (c_matching c) && Nat.eqb k 1 && Nat.ltb n (c_size c) && Nat.eqb n (Nat.pow 2 (Nat.log2 n))).

Lemma only_announced_iff : forall c k n, only_announced c k n = true <-> announced c k n.
Proof.
  intros c k n. unfold only_announced, announced.
  rewrite orb_true_iff, !andb_true_iff, orb_true_iff, !Nat.eqb_eq, Nat.ltb_lt, negb_true_iff. split.
  - intros [[A B]|[[[A B] C] D] ]; [auto|]. right. repeat split; auto. eauto.
  - intros [[A B]|(A & B & C & j & ->)]; [auto|]. right. repeat split; auto. now rewrite Nat.log2_pow2 by lia.
Qed.

Definition only_width (c : config) (n : nat) : bool :=
  Nat.eqb n (c_size c) || (negb (c_matching c) && Nat.ltb n (c_size c) && Nat.eqb n (Nat.pow 2 (Nat.log2 n))).

Lemma only_width_iff : forall c n, only_width c n = true <-> announced_width c n.
Proof.
  intros c n. unfold only_width, announced_width.
  rewrite orb_true_iff, !andb_true_iff, !Nat.eqb_eq, Nat.ltb_lt, negb_true_iff. split.
  - intros [A|[[A C] D] ]; [auto|]. right. repeat split; auto. eauto.
  - intros [A|(A & C & j & ->)]; [auto|]. right. repeat split; auto. now rewrite Nat.log2_pow2 by lia.
Qed.

Lemma pow_below_one : forall j, Nat.pow 2 j < 1 -> False.
Proof. intros j L. pose proof (pow_pos j). lia. Qed.

Lemma for_each_enough_iff : forall osize c, policy_fits c ->
  ((forall f, (forall k n, announced c k n -> f k n = true) -> for_each_compiles osize c f = true)
   <-> c_size c = 1 \/ (c_matching c = false /\ 32 <= c_size c)).
Proof.
  intros osize c F. pose proof F as (S0 & _). split.
  - intros H. specialize (H (only_announced c) (fun k n => proj2 (only_announced_iff c k n))).
    apply (for_each_iff osize c _ F) in H as (_ & _ & H).
    destruct (Nat.eq_dec (c_size c) 1) as [E|E]; [auto|]. right. specialize (H ltac:(lia)).
    pose proof (H 0 ltac:(cbn; lia)) as H0. pose proof (H 5 ltac:(left; cbn; lia)) as H5.
    apply only_announced_iff in H0, H5. change (Nat.pow 2 0) with 1 in H0. change (Nat.pow 2 5) with 32 in H5.
    destruct H0 as [[H0 _]|[H0 _] ]; [lia|]. split; [exact H0|].
    destruct H5 as [[H5 _]|(_ & _ & H5 & _)]; lia.
  - intros D f A. apply (for_each_iff osize c f F). split; [|split].
    + apply A. left. auto.
    + intros _. apply A. left. auto.
    + intros N j L. destruct D as [D|[M D] ]; [lia|]. apply A.
      destruct (Nat.eq_dec (Nat.pow 2 j) (c_size c)) as [E|E]; [left; auto|right].
      repeat split; auto; [|eauto]. destruct L; lia.
Qed.

Lemma count_if_enough_iff : forall osize c, policy_fits c ->
  ((forall pred, (forall n, announced_width c n -> pred n = true) -> count_if_compiles osize c pred = true)
   <-> c_size c = 1 \/ (c_matching c = false /\ 32 <= c_size c)).
Proof.
  intros osize c F. pose proof F as (S0 & _). split.
  - intros H. specialize (H (only_width c) (fun n => proj2 (only_width_iff c n))).
    apply (count_if_iff osize c _ F) in H as (_ & H).
    destruct (Nat.eq_dec (c_size c) 1) as [E|E]; [auto|]. right. specialize (H ltac:(lia)).
    pose proof (H 0 ltac:(cbn; lia)) as H0. pose proof (H 5 ltac:(left; cbn; lia)) as H5.
    apply only_width_iff in H0, H5. change (Nat.pow 2 0) with 1 in H0. change (Nat.pow 2 5) with 32 in H5.
    destruct H0 as [H0|[H0 _] ]; [lia|]. split; [exact H0|].
    destruct H5 as [H5|(_ & H5 & _)]; lia.
  - intros D f A. apply (count_if_iff osize c f F). split.
    + apply A. left. reflexivity.
    + intros N j L. destruct D as [D|[M D] ]; [lia|]. apply A.
      destruct (Nat.eq_dec (Nat.pow 2 j) (c_size c)) as [E|E]; [left; exact E|right].
      repeat split; auto; [|eauto]. destruct L; lia.
Qed.

(** A prologue's chunks are announced. *)
Lemma prologue_below : forall c k j, policy_fits c -> c_prologue c = Some k -> j < k -> Nat.pow 2 j < c_size c.
Proof.
  intros c k j (_ & _ & P) E L. destruct (P k E) as [_ B].
  pose proof (Nat.pow_lt_mono_r 2 j k ltac:(lia) L). lia.
Qed.

Lemma transform_enough_iff : forall p t c, policy_fits c ->
  ((forall ok, (forall n, announced_width c n -> ok n = true) ->
     well_formed (transform_sites p t (of_widths t ok) c) = true)
   <-> c_size c = 1 \/ c_matching c = false).
Proof.
  intros p t c F. pose proof F as (S0 & _). split.
  - intros H. specialize (H (only_width c) (fun n => proj2 (only_width_iff c n))).
    apply (transform_widths_iff p t _ c F) in H as (_ & H & _). apply only_width_iff in H.
    destruct H as [H|[H _] ]; auto.
  - intros D ok A. apply (transform_widths_iff p t ok c F).
    assert (B : forall j, Nat.pow 2 j < c_size c -> ok (Nat.pow 2 j) = true).
    { intros j L. destruct D as [D|M]; [rewrite D in L; destruct (pow_below_one j L)|].
      apply A. right. repeat split; eauto. }
    split; [apply A; left; reflexivity|split; [|split] ].
    + destruct (Nat.eq_dec 1 (c_size c)) as [E|E]; [apply A; left; exact E|].
      change 1 with (Nat.pow 2 0). apply B. cbn. lia.
    + intros k j E L. apply B. exact (prologue_below c k j F E L).
    + intros _. exact B.
Qed.

Lemma transform_reduce_enough_iff : forall p t c, policy_fits c ->
  ((forall ok1 ok2, (forall n, announced_width c n -> ok1 n = true /\ ok2 n = true) ->
     well_formed (transform_reduce_sites p t (of_widths t ok1) (reduce_of_widths t ok2 true) c) = true)
   <-> c_size c = 1 \/ c_matching c = false).
Proof.
  intros p t c F. pose proof F as (S0 & _). split.
  - intros H.
    specialize (H (only_width c) (only_width c)
                  (fun n X => conj (proj2 (only_width_iff c n) X) (proj2 (only_width_iff c n) X))).
    apply (transform_reduce_widths_iff p t _ _ _ c F) in H as (_ & _ & H & _). apply only_width_iff in H.
    destruct H as [H|[H _] ]; auto.
  - intros D ok1 ok2 A. apply (transform_reduce_widths_iff p t ok1 ok2 true c F).
    assert (B : forall j, Nat.pow 2 j < c_size c -> ok1 (Nat.pow 2 j) = true /\ ok2 (Nat.pow 2 j) = true).
    { intros j L. destruct D as [D|M]; [rewrite D in L; destruct (pow_below_one j L)|].
      apply A. right. repeat split; eauto. }
    assert (C : ok1 1 = true /\ ok2 1 = true).
    { destruct (Nat.eq_dec 1 (c_size c)) as [E|E]; [apply A; left; exact E|]. apply (B 0). cbn. lia. }
    destruct (A (c_size c) (or_introl eq_refl)) as [A1 A2]. destruct C as [C1 C2]. repeat split; auto; apply B; assumption.
Qed.
