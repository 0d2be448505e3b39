(** Proofs about simd_tuple. *)
From Verif Require Import Base BaseFacts LaneModel SimdizeModel SimdizeSpec SimdizeProofs SimdTupleModel SimdTupleSpec.
Ltac Zify.zify_post_hook ::= idtac.

Section Proofs.
  Context {W : Type}.
  Implicit Types (t : tree unit) (u : tree (arg W)) (o : object W) (x w : tree W).

  Theorem construct_sound n t : forall u o, construct n t u = Ok o ->
    fits n t u /\ object_of n t o /\ forall i w, (i < n)%nat -> (lane_of i o w <-> arg_lane i u w).
  Proof.
    induction t as [a|ts IH] using tree_ind'; intros u o E.
    - destruct u as [[w|v]|us]; cbn [construct] in E; [| |discriminate].
      + injection E as <-. split; [constructor|]. split; [constructor; apply repeat_length|].
        intros i x Hi. split; intros H.
        * inversion H as [? y Hy|]; subst. apply nth_error_In, repeat_spec in Hy as Hw. subst y. constructor.
        * inversion H; subst. constructor. apply nth_error_repeat. exact Hi.
      + destruct (Nat.eqb_spec (length v) n) as [L|]; [|discriminate]. injection E as <-.
        split; [now constructor|]. split; [now constructor|].
        intros i x Hi. split; intros H; inversion H; subst; now constructor.
    - destruct u as [a|us]; cbn [construct] in E; [discriminate|].
      match type of E with bindR (?f ts us) _ = _ => set (go := f) in E end.
      destruct (go ts us) as [os|s] eqn:G; cbn [bindR] in E; [|discriminate]. injection E as <-.
      assert (K : Forall2 (fits n) ts us /\ Forall2 (object_of n) ts os
        /\ forall i, (i < n)%nat -> forall ws, Forall2 (lane_of i) os ws <-> Forall2 (arg_lane i) us ws).
      { clear E || idtac. revert us os G. induction IH as [|t ts Ht _ IHts]; intros [|u us] os G; cbn [go] in G; try discriminate.
        - injection G as <-. split; [constructor|]. split; [constructor|]. intros i Hi ws.
          split; intros H; inversion H; constructor.
        - destruct (construct n t u) as [o|s] eqn:Eo; cbn [bindR] in G; [|discriminate].
          destruct (go ts us) as [os'|s] eqn:Gs; cbn [bindR] in G; [|discriminate]. injection G as <-.
          destruct (Ht u o Eo) as (F1 & O1 & L1). destruct (IHts us os' Gs) as (F2 & O2 & L2).
          split; [now constructor|]. split; [now constructor|]. intros i Hi ws.
          split; intros H; inversion H as [|? ? ? ? H1 H2]; subst; constructor;
            [now apply L1|now apply L2|now apply L1|now apply L2]. }
      destruct K as (F & O & L). split; [now constructor|]. split; [now constructor|].
      intros i w Hi. split; intros H; inversion H as [| |? ? H1] || inversion H as [|? ? H1]; subst; constructor; now apply L.
  Qed.

  Theorem construct_complete n t : forall u, fits n t u -> exists o, construct n t u = Ok o.
  Proof.
    induction t as [a|ts IH] using tree_ind'; intros u F; inversion F as [|? ? L|? us Fs]; subst; cbn [construct].
    - eexists. reflexivity.
    - rewrite Nat.eqb_refl. eexists. reflexivity.
    - match goal with |- exists o, bindR (?f ts us) _ = _ => set (go := f) end.
      assert (K : exists os, go ts us = Ok os).
      { clear F. revert us Fs. induction IH as [|t ts Ht _ IHts]; intros us Fs; inversion Fs as [|? u ? us' F1 F2]; subst.
        - exists []. reflexivity.
        - destruct (Ht u F1) as [o Eo]. destruct (IHts us' F2) as [os Es]. exists (o :: os). cbn [go].
          rewrite Eo. cbn [bindR]. change (bindR (go ts us') (fun os => Ok (o :: os)) = Ok (o :: os)). now rewrite Es. }
      destruct K as [os ->]. eexists. reflexivity.
  Qed.

  Theorem construct_stop n t : forall u s, construct n t u = Stop s -> s = SIllFormed.
  Proof.
    induction t as [a|ts IH] using tree_ind'; intros u s E.
    - destruct u as [[w|v]|us]; cbn [construct] in E; try congruence. destruct (_ =? _)%nat; congruence.
    - destruct u as [a|us]; cbn [construct] in E; [congruence|].
      match type of E with bindR (?f ts us) _ = _ => set (go := f) in E end.
      assert (K : forall s, go ts us = Stop s -> s = SIllFormed).
      { clear E. revert us. induction IH as [|t ts Ht _ IHts]; intros [|u us] s' G; cbn [go] in G; try congruence.
        destruct (construct n t u) as [o|s2] eqn:Eo; cbn [bindR] in G; [|injection G as <-; now apply (Ht u)].
        change (bindR (go ts us) (fun os => Ok (o :: os)) = Stop s') in G.
        destruct (go ts us) as [os|s2] eqn:Gs; cbn [bindR] in G; [discriminate|]. injection G as <-. now apply (IHts us). }
      destruct (go ts us) as [os|s2] eqn:G; cbn [bindR] in E; [discriminate|]. injection E as <-. now apply K.
  Qed.

  Theorem construct_iff n t u : ((exists o, construct n t u = Ok o) <-> fits n t u)
    /\ (~ fits n t u -> construct n t u = Stop SIllFormed).
  Proof.
    split; [split; [intros [o E]; now apply (construct_sound n t u o)|apply construct_complete]|].
    intros H. destruct (construct n t u) as [o|s] eqn:E.
    - exfalso. apply H. now apply (construct_sound n t u o).
    - f_equal. now apply (construct_stop n t u).
  Qed.

  Theorem lane_at_ok n t : forall o i, object_of n t o -> 0 <= i < Z.of_nat n ->
    exists w, lane_at i o = Ok w /\ lane_of (Z.to_nat i) o w.
  Proof.
    induction t as [a|ts IH] using tree_ind'; intros o i Ho Hi; inversion Ho as [? v L|? os Fo]; subst; cbn [lane_at].
    - unfold subscript. destruct (Z.leb_spec 0 i); [|lia]. destruct (Z.ltb_spec i (Z.of_nat (length v))); [|lia].
      cbn [andb]. unfold lane. destruct (nth_error v (Z.to_nat i)) as [w|] eqn:Ew.
      + cbn [bindR of_option]. exists (Leaf w). split; [reflexivity|now constructor].
      + apply nth_error_None in Ew. lia.
    - match goal with |- context [bindR (?f os) _] => set (go := f) end.
      assert (K : exists ws, go os = Ok ws /\ Forall2 (lane_of (Z.to_nat i)) os ws).
      { clear Ho. revert os Fo. induction IH as [|t ts Ht _ IHts]; intros os Fo; inversion Fo as [|? o ? os' F1 F2]; subst.
        - exists []. split; [reflexivity|constructor].
        - destruct (Ht o i F1 Hi) as (w & Ew & Lw). destruct (IHts os' F2) as (ws & Es & Ls). exists (w :: ws). cbn [go].
          rewrite Ew. cbn [bindR]. change (bindR (go os') (fun ws => Ok (w :: ws)) = Ok (w :: ws) /\ Forall2 (lane_of (Z.to_nat i)) (o :: os') (w :: ws)).
          rewrite Es. split; [reflexivity|now constructor]. }
      destruct K as (ws & -> & L). exists (Struct ws). split; [reflexivity|now constructor].
  Qed.

  Theorem construct_lanes n t u : fits n t u ->
    exists o, construct n t u = Ok o /\ object_of n t o
      /\ forall i, 0 <= i < Z.of_nat n -> exists w, lane_at i o = Ok w /\ arg_lane (Z.to_nat i) u w.
  Proof.
    intros F. destruct (construct_complete n t u F) as [o E]. destruct (construct_sound n t u o E) as (_ & O & L).
    exists o. split; [exact E|]. split; [exact O|]. intros i Hi. destruct (lane_at_ok n t o i O Hi) as (w & Ew & Lw).
    exists w. split; [exact Ew|]. apply L; [lia|exact Lw].
  Qed.

  Lemma scalars_fit n t : forall x, same_shape t x -> fits n t (scalars x).
  Proof.
    induction t as [a|ts IH] using tree_ind'; intros x S; inversion S as [|? xs Sx]; subst; cbn [scalars]; constructor.
    clear S. revert xs Sx. induction IH as [|t ts Ht _ IHts]; intros xs Sx; inversion Sx; subst; cbn [map]; constructor; auto.
  Qed.

  Lemma scalars_lane i x : forall w, arg_lane i (scalars x) w -> w = x.
  Proof.
    induction x as [a|xs IH] using tree_ind'; intros w L; cbn [scalars] in L; inversion L as [| |? ws F]; subst; [reflexivity|].
    f_equal. clear L. revert ws F. induction IH as [|x xs Hx _ IHxs]; intros ws F; cbn [map] in F; inversion F; subst; f_equal; auto.
  Qed.

  Theorem broadcast n t x : same_shape t x ->
    exists o, construct n t (scalars x) = Ok o /\ object_of n t o /\ forall i, 0 <= i < Z.of_nat n -> lane_at i o = Ok x.
  Proof.
    intros S. destruct (construct_lanes n t (scalars x) (scalars_fit n t x S)) as (o & E & O & L).
    exists o. split; [exact E|]. split; [exact O|]. intros i Hi. destruct (L i Hi) as (w & Ew & A).
    apply scalars_lane in A. now subst w.
  Qed.

  Theorem convert_back n t : forall s o, object_of n t o -> same_shape s t ->
    exists u, convert s o = Ok u /\ simds o u /\ construct n t u = Ok o.
  Proof.
    induction t as [a|ts IH] using tree_ind'; intros s o O S; inversion S as [b|ss ? Ss]; inversion O as [? v L|? os Os]; subst; cbn [convert].
    - eexists. split; [reflexivity|]. split; [constructor|]. cbn [construct]. now rewrite Nat.eqb_refl.
    - match goal with |- context [bindR (?f ss os) _] => set (go := f) end.
      assert (K : exists us, go ss os = Ok us /\ Forall2 simds os us /\ construct n (Struct ts) (Struct us) = Ok (Struct os)).
      { clear S O. revert ss os Ss Os.
        induction IH as [|t ts Ht _ IHts]; intros ss os Ss Os; inversion Ss as [|s ? ss' ? S1 S2]; inversion Os as [|? o ? os' O1 O2]; subst.
        - exists []. split; [reflexivity|]. split; [constructor|reflexivity].
        - destruct (Ht s o O1 S1) as (u & Eu & Su & Cu). destruct (IHts ss' os' S2 O2) as (us & Eus & Sus & Cus).
          exists (u :: us). cbn [go]. rewrite Eu. cbn [bindR].
          change (bindR (go ss' os') (fun us => Ok (u :: us)) = Ok (u :: us) /\ Forall2 simds (o :: os') (u :: us)
            /\ construct n (Struct (t :: ts)) (Struct (u :: us)) = Ok (Struct (o :: os'))).
          rewrite Eus. split; [reflexivity|]. split; [now constructor|].
          cbn [construct] in Cus |- *. rewrite Cu. cbn [bindR].
          match type of Cus with bindR ?g _ = _ => destruct g as [l|] end; cbn [bindR] in Cus |- *; [|discriminate].
          injection Cus as ->. reflexivity. }
      destruct K as (us & -> & F & C). exists (Struct us). split; [reflexivity|]. split; [now constructor|exact C].
  Qed.

  (** Loads *)
  Lemma load_flat (m : mem W) p n ts : 1 <= n -> ts <> [] -> (forall t, In t ts -> exists a, t = Leaf a) ->
    defined_at m p (Z.of_nat (length ts) * n) ->
    exists vs, load_object m p n (Struct ts) = Ok vs /\ shaped vs (Z.of_nat (length ts)) n
      /\ lanes_from m p (Z.of_nat (length ts)) n vs.
  Proof.
    intros Hn Hne Ht D. unfold load_object.
    assert (E : forallb (fun t' => match t' with Leaf _ => true | Struct _ => false end) ts = true).
    { apply forallb_forall. intros t Hin. destruct (Ht t Hin) as [a ->]. reflexivity. }
    rewrite E. destruct (m p) as [zero|] eqn:Ez.
    - apply (tuple_load_lanes zero); [destruct ts; [congruence|cbn [length]; lia]|exact Hn|exact D].
    - exfalso. apply (D 0); [destruct ts; [congruence|cbn [length]; nia]|]. now rewrite Z.add_0_r.
  Qed.

  Lemma load_nested (m : mem W) p n ts us : In (Struct us) ts -> load_object m p n (Struct ts) = Stop SIllFormed.
  Proof.
    intros H. unfold load_object. destruct (forallb _ ts) eqn:E; [|reflexivity].
    rewrite forallb_forall in E. now specialize (E _ H).
  Qed.
End Proofs.

Lemma load_nested_refuted : exists (m : mem Z) p n (t : tree unit), populated t /\ 1 <= n
  /\ defined_at m p (Z.of_nat (length (leaves t)) * n) /\ load_object m p n t = Stop SIllFormed.
Proof.
  exists (fun _ => Some 0), 0, 4, (Struct [Struct [Leaf tt; Leaf tt]; Leaf tt]). split; [|split; [lia|split; [|reflexivity] ] ].
  - constructor; [discriminate|]. intros x [<-|[<-|[] ] ]; constructor; [discriminate|]. intros x [<-|[<-|[] ] ]; constructor.
  - intros q _. discriminate.
Qed.
