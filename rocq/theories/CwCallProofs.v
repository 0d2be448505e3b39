(** Proofs about call, subscript and unary operators of constexpr_wrapper. *)
From Verif Require Import Base BaseFacts CwOpModel CwCallModel CwCallSpec.
From Coq Require Import ZifyBool.
Ltac Zify.zify_post_hook ::= idtac.

Section Spec.
  Context {A R : Type}.

  Lemma constants_iff (args : list (argument A)) vs :
    constants args = Some vs <-> Forall is_const args /\ vs = map argument_value args.
  Proof.
    revert vs. induction args as [|[a|a] args IH]; intros vs; cbn.
    - split; [intros E; injection E as <-; auto|intros [_ ->]; reflexivity].
    - destruct (constants args) as [l|]; cbn.
      + split.
        * intros E. injection E as <-. destruct (proj1 (IH l) eq_refl) as [F ->]. split; [now constructor|reflexivity].
        * intros [F ->]. inversion F; subst. destruct (proj1 (IH l) eq_refl) as [_ ->]. reflexivity.
      + split; [discriminate|]. intros [F ->]. inversion F as [|? ? _ F']; subst.
        pose proof (proj2 (IH _) (conj F' eq_refl)). discriminate.
    - split; [discriminate|]. intros [F _]. inversion F as [|? ? H]; subst. destruct H.
  Qed.

  Lemma constants_none (args : list (argument A)) : constants args = None <-> Exists (fun x => ~ is_const x) args.
  Proof.
    induction args as [|[a|a] args IH]; cbn.
    - split; [discriminate|intros H; inversion H].
    - destruct (constants args); cbn.
      + split; [discriminate|]. intros H. inversion H as [? ? N|? ? E]; subst; [now destruct N|]. now apply IH in E.
      + split; [intros _; right; now apply IH|reflexivity].
    - split; [intros _; left; now cbn|reflexivity].
  Qed.

  Lemma content_forwarded (args : list (argument A)) : map content (map forwarded args) = map argument_value args.
  Proof. rewrite map_map. apply map_ext. now intros [a|a]. Qed.

  Lemma content_value (l : list A) : map content (map (@Value A) l) = l.
  Proof. rewrite map_map. apply map_id. Qed.

  Lemma call_const (c : wrapped A R) args r : Forall is_const args -> c_constant c (map argument_value args) = true ->
    c_apply c (map (@Value A) (map argument_value args)) = Some r ->
    call c args = AWrapped r /\ (c_compound c = true -> subscript c args = AWrapped r).
  Proof.
    intros F Hc E. unfold call, subscript, first_overload.
    rewrite (proj2 (constants_iff args _) (conj F eq_refl)), Hc, E. split; [reflexivity|]. now intros ->.
  Qed.

  Lemma call_mixed (c : wrapped A R) args r : Exists (fun x => ~ is_const x) args ->
    c_apply c (map forwarded args) = Some r ->
    call c args = APlain r /\ (c_compound c = true \/ c_scalar c = true -> subscript c args = APlain r).
  Proof.
    intros X E. unfold call, subscript, first_overload, second_overload, converted.
    rewrite (proj2 (constants_none args) X), E. split; [reflexivity|].
    destruct (c_compound c), (c_scalar c); try reflexivity. intros [|]; discriminate.
  Qed.

  (** Every result is the one of the wrapped object. *)
  Lemma call_value (c : wrapped A R) args r : transparent c -> (call c args = AWrapped r \/ call c args = APlain r) ->
    c_apply c (map (@Value A) (map argument_value args)) = Some r.
  Proof.
    intros T. unfold call, first_overload, second_overload, converted.
    assert (Ef : c_apply c (map forwarded args) = c_apply c (map (@Value A) (map argument_value args))).
    { apply T. now rewrite content_forwarded, content_value. }
    rewrite Ef. destruct (constants args) as [vs|] eqn:Ec; [apply constants_iff in Ec as [_ ->]|];
      destruct (c_apply c (map (@Value A) (map argument_value args))) as [q|] eqn:E;
      try destruct (c_constant c (map argument_value args)); try (intros [H|H]; congruence);
      destruct args; try destruct (c_apply c []); destruct (c_scalar c); intros [H|H]; congruence.
  Qed.

  (** Exactly when a call is ill-formed although the wrapped object can be called. *)
  Lemma call_ill_formed_iff (c : wrapped A R) args : transparent c ->
    (call c args = AIllFormed <->
     (args <> [] /\ c_apply c (map (@Value A) (map argument_value args)) = None)
     \/ (c_apply c (map (@Value A) (map argument_value args)) <> None /\ Forall is_const args
         /\ c_constant c (map argument_value args) = false /\ c_scalar c = false)).
  Proof.
    intros T. unfold call, first_overload, second_overload, converted.
    assert (Ef : c_apply c (map forwarded args) = c_apply c (map (@Value A) (map argument_value args))).
    { apply T. now rewrite content_forwarded, content_value. }
    rewrite Ef. destruct (constants args) as [vs|] eqn:Ec.
    - apply constants_iff in Ec as [F ->].
      destruct (c_apply c (map (@Value A) (map argument_value args))) as [q|] eqn:E.
      + destruct (c_constant c (map argument_value args)).
        * split; [discriminate|]. intros [[_ H]|(_ & _ & H & _)]; discriminate.
        * assert (EQ : match args, c_apply c [] with [], None => AItself | _, _ => if c_scalar c then APlain q else AIllFormed end
                      = if c_scalar c then APlain q else AIllFormed).
          { destruct args; [|reflexivity]. cbn in E. now rewrite E. }
          rewrite EQ. destruct (c_scalar c); (split; [|try discriminate]).
          -- discriminate.
          -- intros [[_ H]|(_ & _ & _ & H)]; discriminate.
          -- intros _. right. repeat split; auto. discriminate.
          -- reflexivity.
      + assert (EQ : (if c_constant c (map argument_value args) then @None R else None) = None) by now destruct c_constant.
        rewrite EQ. destruct args as [|x args].
        * cbn in E. rewrite E. split; [discriminate|]. intros [[H _]|[H _]]; congruence.
        * split; [intros _; left; split; [discriminate|reflexivity]|]. intros _. now destruct (c_scalar c).
    - apply constants_none in Ec.
      destruct (c_apply c (map (@Value A) (map argument_value args))) as [q|] eqn:E.
      + split; [discriminate|]. intros [[_ H]|(_ & F & _)]; [discriminate|]. exfalso.
        clear - Ec F. induction Ec as [x l H|x l H IH]; inversion F; subst; auto.
      + assert (args <> []) by (intros ->; inversion Ec). destruct args as [|x args]; [congruence|].
        split; [intros _; left; split; [assumption|reflexivity]|]. intros _. now destruct (c_scalar c).
  Qed.

  (** Without arguments: the value itself unless it can be called. *)
  Lemma call_itself_iff (c : wrapped A R) args : call c args = AItself <-> args = [] /\ c_apply c [] = None.
  Proof.
    unfold call, first_overload, second_overload, converted. destruct args as [|x args].
    - cbn. destruct (c_apply c []) as [r|] eqn:E.
      + destruct (c_constant c []); [|destruct (c_scalar c)]; (split; [discriminate|intros [_ H]; discriminate]).
      + destruct (c_constant c []); (split; [auto|reflexivity]).
    - split; [|intros [H _]; discriminate].
      destruct (match constants (x :: args) with Some vs => _ | None => _ end); [discriminate|].
      destruct (match constants (x :: args) with Some _ => _ | None => _ end); [discriminate|].
      destruct (c_scalar c); [|discriminate]. destruct (c_apply c (map forwarded (x :: args))); discriminate.
  Qed.

  Lemma subscript_value (c : wrapped A R) args r : transparent c -> (subscript c args = AWrapped r \/ subscript c args = APlain r) ->
    c_apply c (map (@Value A) (map argument_value args)) = Some r.
  Proof.
    intros T. unfold subscript, first_overload, second_overload, converted.
    assert (Ef : c_apply c (map forwarded args) = c_apply c (map (@Value A) (map argument_value args))).
    { apply T. now rewrite content_forwarded, content_value. }
    rewrite Ef. destruct (constants args) as [vs|] eqn:Ec; [apply constants_iff in Ec as [_ ->]|];
      destruct (c_apply c (map (@Value A) (map argument_value args))) as [q|]; destruct (c_compound c), (c_scalar c);
      try destruct (c_constant c (map argument_value args)); intros [H|H]; congruence.
  Qed.

  (** Exactly when a subscript is ill-formed. *)
  Lemma subscript_ill_formed_iff (c : wrapped A R) args : transparent c -> (c_scalar c = true \/ c_compound c = true) ->
    (subscript c args = AIllFormed <->
     c_apply c (map (@Value A) (map argument_value args)) = None
     \/ (Forall is_const args /\ c_constant c (map argument_value args) = false /\ c_scalar c = false)).
  Proof.
    intros T Hsc. unfold subscript, first_overload, second_overload, converted.
    assert (Ef : c_apply c (map forwarded args) = c_apply c (map (@Value A) (map argument_value args))).
    { apply T. now rewrite content_forwarded, content_value. }
    rewrite Ef. destruct (constants args) as [vs|] eqn:Ec.
    - apply constants_iff in Ec as [F ->].
      destruct (c_apply c (map (@Value A) (map argument_value args))) as [q|]; destruct (c_compound c), (c_scalar c);
        try (exfalso; destruct Hsc; discriminate);
        destruct (c_constant c (map argument_value args)); (split; [try discriminate; auto|]); try reflexivity;
        (intros [H|(_ & H1 & H2)]; try discriminate; destruct Hsc; discriminate).
    - apply constants_none in Ec.
      assert (~ Forall is_const args). { intros F. clear - Ec F. induction Ec; inversion F; subst; auto. }
      destruct (c_apply c (map (@Value A) (map argument_value args))) as [q|]; destruct (c_compound c), (c_scalar c);
        try (exfalso; destruct Hsc; discriminate);
        (split; [try discriminate; auto|]); try reflexivity;
        (intros [H1|(H1 & _)]; try discriminate; try contradiction; destruct Hsc; discriminate).
  Qed.
End Spec.

(** Unary operators. *)
Lemma unary_wraps op w c : w_xty w = w_ty w -> op (w_ty w, w_x w) = Some c -> unary op w = Wrapped (wrap c).
Proof. intros E H. unfold unary. now rewrite E, H. Qed.

Lemma unary_exact op w c : op (w_ty w, w_x w) = Some c ->
  (unary op w = Wrapped (wrap c) \/ unary op w = Plain (Ok c)
   <-> op (w_xty w, w_x w) = Some c \/ op (w_xty w, w_x w) = None).
Proof.
  intros H. unfold unary. rewrite H. destruct (op (w_xty w, w_x w)) as [d|].
  - split; [intros [E|E]; [injection E|discriminate]; intros; left; f_equal; destruct c, d; cbn in *; congruence|].
    intros [E|E]; [left; congruence|discriminate].
  - split; [auto|]. intros _. now right.
Qed.

Lemma unary_refuted : exists w, negate (w_ty w, w_x w) = Some (7, -1) /\ unary negate w = Wrapped (wrap (5, 4294967295)).
Proof. exists (mkw 5 1 7). split; reflexivity. Qed.

Lemma call_refuted : exists (c : wrapped Z Z) args r, transparent c /\
  c_apply c (map (@Value Z) (map argument_value args)) = Some r /\ args = [AConst 1] /\ call c args = AIllFormed
  /\ call c [ARun 1] = APlain r.
Proof.
  exists not_constant, [AConst 1], 1. split; [|now repeat split].
  intros l l' E. cbn. apply (f_equal (@length _)) in E. rewrite !map_length in E. now rewrite E.
Qed.

Lemma call_mixed_refuted : exists (c : wrapped Z Z) args r r', c_apply c (map (@Value Z) (map argument_value args)) = Some r
  /\ call c args = APlain r' /\ r <> r'.
Proof. exists counts_values, [AConst 1; ARun 2], 2, 1. repeat split. discriminate. Qed.
