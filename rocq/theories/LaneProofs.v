(** Facts about generators and lane loops. *)
From Verif Require Import Base BaseFacts LaneModel.
From Coq Require Import ZifyBool ZifyNat.
Ltac Zify.zify_post_hook ::= idtac.

Definition only_ub {A} (r : res A) : Prop := forall s, r = Stop s -> s = SUB.

Lemma bindR_assoc {A B C} (r : res A) (f : A -> res B) (g : B -> res C) :
  bindR (bindR r f) g = bindR r (fun a => bindR (f a) g).
Proof. destruct r; reflexivity. Qed.

Lemma mapR_ext' {A B} (f g : A -> res B) l : (forall x, In x l -> f x = g x) -> mapR f l = mapR g l.
Proof.
  induction l as [|x l IH]; intros H; [reflexivity|]. cbn [mapR].
  rewrite (H x (or_introl eq_refl)), IH; [reflexivity|]. intros y Hy. apply H. now right.
Qed.

Lemma mapR_map {A B C} (f : B -> res C) (g : A -> B) l : mapR f (map g l) = mapR (fun x => f (g x)) l.
Proof. induction l as [|x l IH]; [reflexivity|]. cbn [map mapR]. now rewrite IH. Qed.

Lemma mapR_pure {A B} (f : A -> B) l : mapR (fun x => Ok (f x)) l = Ok (map f l).
Proof. induction l as [|x l IH]; [reflexivity|]. cbn [mapR map]. rewrite IH. reflexivity. Qed.

Lemma mapR_iff {A B} (f : A -> res B) : forall l r, mapR f l = Ok r <->
  length r = length l /\ forall i x, nth_error l i = Some x -> exists y, f x = Ok y /\ nth_error r i = Some y.
Proof.
  induction l as [|a l IH]; intros r; cbn [mapR].
  - split.
    + intros H. injection H as <-. split; [reflexivity|]. intros [|i] x Hx; discriminate.
    + intros [Hl _]. destruct r; [reflexivity|discriminate].
  - split.
    + intros H. destruct (f a) as [b|] eqn:Ea; [|discriminate]. cbn [bindR] in H.
      destruct (mapR f l) as [r'|] eqn:El; [|discriminate]. cbn [bindR] in H. injection H as <-.
      destruct (proj1 (IH r') eq_refl) as [Hlen Hn]. split; [cbn [length]; congruence|].
      intros [|i] x Hx; [|exact (Hn i x Hx)]. cbn [nth_error] in *. injection Hx as <-. eauto.
    + intros [Hlen Hn]. destruct r as [|b r]; [discriminate|].
      destruct (Hn 0%nat a eq_refl) as (y & Ey & Hy). cbn [nth_error] in Hy. injection Hy as <-.
      rewrite Ey. cbn [bindR]. rewrite (proj2 (IH r)); [reflexivity|]. split; [cbn [length] in Hlen; lia|].
      intros i x Hx. exact (Hn (S i) x Hx).
Qed.

Lemma mapR_ub {A B} (f : A -> res B) : forall l, (forall x, only_ub (f x)) ->
  (mapR f l = Stop SUB <-> exists i x, nth_error l i = Some x /\ f x = Stop SUB) /\ only_ub (mapR f l).
Proof.
  induction l as [|a l IH]; intros Hf; cbn [mapR].
  - split; [split; [discriminate|]|intros s H; discriminate]. intros (i & x & H & _). destruct i; discriminate.
  - destruct (IH Hf) as [IH1 IH2]. destruct (f a) as [b|s] eqn:Ea; cbn [bindR].
    + split.
      * split.
        -- intros H. destruct (mapR f l) as [r|s] eqn:El; [discriminate|]. cbn [bindR] in H. injection H as ->.
           destruct (proj1 IH1 eq_refl) as (i & x & Hx & Hs). exists (S i), x. split; assumption.
        -- intros (i & x & Hx & Hs). destruct i as [|i]; [cbn in Hx; congruence|].
           rewrite (proj2 IH1); [reflexivity|]. exists i, x. split; assumption.
      * intros s H. destruct (mapR f l) as [r|s'] eqn:El; [discriminate|]. cbn [bindR] in H. injection H as ->.
        now apply IH2.
    + pose proof (Hf a s Ea) as ->. split; [|intros s H; congruence].
      split; [intros _; exists 0%nat, a; split; [reflexivity|assumption]|reflexivity].
Qed.

Lemma set_lane_app {A} (d : list A) a p x : set_lane (d ++ a :: p) (length d) x = d ++ x :: p.
Proof. induction d as [|b d IH]; [reflexivity|]. cbn [app length set_lane]. now rewrite IH. Qed.

Lemma lane_app {A} (d : list A) a p : lane (d ++ a :: p) (length d) = Ok a.
Proof. unfold lane, of_option. rewrite nth_error_app2, Nat.sub_diag by lia. reflexivity. Qed.

(** Generators that read their lane. *)
Lemma gen_lanes_from {A B} (f : nat -> A -> res B) : forall v d,
  mapR (fun i => bindR (lane (d ++ v) i) (f i)) (seq (length d) (length v))
  = mapR (fun '(i, a) => f i a) (combine (seq (length d) (length v)) v).
Proof.
  induction v as [|a v IH]; intros d; [reflexivity|]. cbn [length seq mapR combine].
  rewrite lane_app. cbn [bindR]. specialize (IH (d ++ [a])). rewrite app_length, <- app_assoc in IH.
  cbn [length app] in IH. replace (length d + 1)%nat with (S (length d)) in IH by lia. now rewrite IH.
Qed.

Lemma gen_indexed {A B} (f : nat -> A -> res B) v :
  gen (length v) (fun i => bindR (lane v i) (f i)) = mapR (fun '(i, a) => f i a) (combine (seq 0 (length v)) v).
Proof. exact (gen_lanes_from f v []). Qed.

Lemma mapR_snd {A B C} (f : B -> res C) : forall (l : list A) (l' : list B), length l = length l' ->
  mapR (fun '(_, b) => f b) (combine l l') = mapR f l'.
Proof.
  induction l as [|a l IH]; intros [|b l'] H; try discriminate; [reflexivity|]. cbn [combine mapR].
  rewrite IH; [reflexivity|]. cbn in H. lia.
Qed.

Lemma gen_lanes {A B} (f : A -> res B) v : gen (length v) (fun i => bindR (lane v i) f) = mapR f v.
Proof. rewrite (gen_indexed (fun _ => f)). apply mapR_snd. apply seq_length. Qed.

Lemma mapR_second {A B} (g : A -> A -> res B) : forall x y dy, length x = length y ->
  mapR (fun '(i, a) => bindR (lane (dy ++ y) i) (g a)) (combine (seq (length dy) (length x)) x)
  = mapR (fun '(a, b) => g a b) (combine x y).
Proof.
  induction x as [|a x IH]; intros [|b y] dy H; try discriminate; [reflexivity|]. cbn [length seq combine mapR].
  rewrite lane_app. cbn [bindR]. specialize (IH y (dy ++ [b])). rewrite app_length, <- app_assoc in IH.
  cbn [length app] in IH. replace (length dy + 1)%nat with (S (length dy)) in IH by lia.
  rewrite IH; [reflexivity|]. cbn in H. lia.
Qed.

Lemma gen_lanes2 {A B} (g : A -> A -> res B) x y : length x = length y ->
  gen (length x) (fun i => bindR (lane x i) (fun a => bindR (lane y i) (g a)))
  = mapR (fun '(a, b) => g a b) (combine x y).
Proof.
  intros H. rewrite (gen_indexed (fun i a => bindR (lane y i) (g a))). exact (mapR_second g x y [] H).
Qed.

(** Loops that update each lane from its old value. *)
Lemma loop_lanes_from {A} (f : nat -> A -> res A) (body : nat -> list A -> res (list A)) :
  (forall d a p, body (length d) (d ++ a :: p) = bindR (f (length d) a) (fun r => Ok (d ++ r :: p))) ->
  forall v d, loop (length d) (length v) body (d ++ v)
    = bindR (mapR (fun '(i, a) => f i a) (combine (seq (length d) (length v)) v)) (fun r => Ok (d ++ r)).
Proof.
  intros Hb. induction v as [|a v IH]; intros d; [cbn; now rewrite app_nil_r|]. cbn [length loop seq combine mapR].
  rewrite Hb. destruct (f (length d) a) as [r|s]; [|reflexivity]. cbn [bindR].
  specialize (IH (d ++ [r])). rewrite app_length, <- app_assoc in IH. cbn [length app] in IH.
  replace (length d + 1)%nat with (S (length d)) in IH by lia. rewrite IH.
  destruct (mapR _ _); cbn [bindR]; [|reflexivity]. now rewrite <- app_assoc.
Qed.

Lemma loop_indexed {A} (f : nat -> A -> res A) (body : nat -> list A -> res (list A)) :
  (forall d a p, body (length d) (d ++ a :: p) = bindR (f (length d) a) (fun r => Ok (d ++ r :: p))) ->
  forall v, loop 0 (length v) body v = mapR (fun '(i, a) => f i a) (combine (seq 0 (length v)) v).
Proof.
  intros Hb v. pose proof (loop_lanes_from f body Hb v []) as H. cbn [length app] in H. rewrite H.
  destruct (mapR _ _); reflexivity.
Qed.

Lemma loop_lanes {A} (f : A -> res A) (body : nat -> list A -> res (list A)) :
  (forall d a p, body (length d) (d ++ a :: p) = bindR (f a) (fun r => Ok (d ++ r :: p))) ->
  forall v, loop 0 (length v) body v = mapR f v.
Proof.
  intros Hb v. rewrite (loop_indexed (fun _ => f) body Hb). apply mapR_snd. apply seq_length.
Qed.

Lemma loop_lanes2 {A} (g : A -> A -> res A) (body : nat -> list A -> res (list A)) x y : length x = length y ->
  (forall d a p, body (length d) (d ++ a :: p)
     = bindR (bindR (lane y (length d)) (g a)) (fun r => Ok (d ++ r :: p))) ->
  loop 0 (length x) body x = mapR (fun '(a, b) => g a b) (combine x y).
Proof.
  intros Hl Hb. rewrite (loop_indexed (fun i a => bindR (lane y i) (g a)) body Hb). exact (mapR_second g x y [] Hl).
Qed.

Lemma combine_nth_some {A B} : forall (x : list A) (y : list B) i a b,
  nth_error (combine x y) i = Some (a, b) <-> nth_error x i = Some a /\ nth_error y i = Some b.
Proof.
  induction x as [|a' x IH]; intros [|b' y] i a b; destruct i as [|i]; cbn [combine nth_error];
    try (split; [discriminate|intros [? ?]; discriminate]); [|apply IH].
  split; [intros H; injection H as <- <-; auto|intros [H1 H2]; congruence].
Qed.
