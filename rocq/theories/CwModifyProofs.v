(** Proofs for C70. *)
From Verif Require Import Base CwModifyModel CwModifySpec.

Section Proofs.
  Variable sv : Z -> option value.
  Variable u1 : unop -> value -> option fn.
  Variable u2 : asgop -> value -> value -> option fn.
  Variable ua : value -> option arrow_fn.

  Lemma category_irrelevant op c c' v : op <> AddressOf -> expr1 sv u1 op c v = expr1 sv u1 op c' v.
  Proof. intros H. destruct v, op, c, c'; try congruence; cbn [expr1]; try reflexivity; destruct (u1 _ _); reflexivity. Qed.

  Lemma unary_wraps l op v r : op <> AddressOf ->
    expr1 sv u1 op (named v) v = Constant r -> unary sv u1 l op v = RWrapped r.
  Proof. intros H E. unfold unary. rewrite (category_irrelevant op _ (named v) v H), E. reflexivity. Qed.

  Lemma unary_wrapped_iff l op v r : op <> AddressOf ->
    (unary sv u1 l op v = RWrapped r <-> expr1 sv u1 op (named v) v = Constant r).
  Proof.
    intros H. split; [|now apply unary_wraps]. unfold unary. rewrite (category_irrelevant op _ (named v) v H).
    destruct (expr1 sv u1 op (named v) v); [| |congruence];
      (destruct (match v with Cls _ _ => _ | _ => _ end); [discriminate|]; destruct op, v, l; discriminate).
  Qed.

  (** Exactly when it compiles. *)
  Lemma unary_accepted_iff l op v : op <> AddressOf ->
    (unary sv u1 l op v <> RIllFormed <->
     expr1 sv u1 op (named v) v <> IllFormed /\
     (is_class v = true -> expr1 sv u1 op (named v) v = NotConstant -> exists f, u1 op v = Some f /\ f_member f = false)).
  Proof.
    clear u2 ua. intros H. unfold unary. rewrite (category_irrelevant op _ (named v) v H).
    destruct v as [t x|t d|p].
    - destruct op; try congruence; cbn; split; intros; try tauto; destruct H0; congruence.
    - cbn [expr1 is_class]. destruct (u1 op (Cls t d)) as [[mem cst res]|] eqn:E.
      + assert (O : forall A (x y : A), match op with AddressOf => x | _ => y end = y) by (intros; destruct op; congruence).
        unfold called. cbn [f_const f_result f_member by_conversion].
        destruct cst; cbn [negb andb]; [destruct res as [r|]|].
        * split; [intros _; split; discriminate|discriminate].
        * destruct mem; cbn [negb andb].
          -- split; [intros H1; exfalso; apply H1; destruct op; congruence|].
             intros [_ H1]. destruct (H1 eq_refl eq_refl) as (f & Ef & Hf). injection Ef as <-. discriminate.
          -- split; [intros _; split; [discriminate|]|discriminate]. intros _ _. eexists. split; reflexivity.
        * rewrite andb_false_r. split; [intros H1; exfalso; apply H1; destruct op; congruence|]. intros [H1 _]. congruence.
      + destruct op; try congruence; cbn; split; intros H1; try tauto; destruct H1; congruence.
    - destruct op; try congruence; cbn; try (destruct (object_at sv p)); split; intros H1; try tauto; try discriminate;
        try (split; [discriminate|discriminate]); destruct H1; congruence.
  Qed.

  (** & *)
  Lemma address_scalar v : is_class v = false ->
    expr1 sv u1 AddressOf (named v) v = Constant (Addr (Member v)) /\
    unary sv u1 true AddressOf v = RAddress /\ unary sv u1 false AddressOf v = RIllFormed.
  Proof. destruct v; try discriminate; repeat split; reflexivity. Qed.

  Lemma address_class l t d : u1 AddressOf (Cls t d) = None ->
    expr1 sv u1 AddressOf (named (Cls t d)) (Cls t d) = Constant (Addr (Member (Cls t d))) /\
    unary sv u1 l AddressOf (Cls t d) = RWrapped (Addr (Param (Cls t d))) /\
    object_at sv (Param (Cls t d)) = Some (Cls t d).
  Proof. intros H. unfold unary. cbn [expr1 named nttp]. rewrite H. repeat split. Qed.

  (** * undoes & *)
  Lemma deref_address l l' v w : unary sv u1 l AddressOf v = RWrapped w -> u1 AddressOf v = None ->
    unary sv u1 l' Deref w = RWrapped v.
  Proof.
    intros H E. destruct v as [t x|t d|p]; [destruct l; discriminate| |destruct l; discriminate].
    unfold unary in H. cbn [expr1 nttp] in H. rewrite E in H. injection H as <-. reflexivity.
  Qed.

  Lemma scalar_modification l op v : is_class v = false -> op <> AddressOf -> op <> Deref ->
    unary sv u1 l op v = RIllFormed.
  Proof. intros H H1 H2. destruct v; try discriminate; destruct op; try congruence; reflexivity. Qed.

  (** Assignments *)
  Lemma compound_wraps n a b x y r : constant_of a = Some x -> constant_of b = Some y ->
    expr2 u2 (Compound n) x y = Constant r -> compound u2 n a b = RWrapped r.
  Proof. intros Ha Hb E. unfold compound. now rewrite Ha, Hb, E. Qed.

  Lemma compound_wrapped_iff n a b r :
    compound u2 n a b = RWrapped r <->
    exists x y, constant_of a = Some x /\ constant_of b = Some y /\ expr2 u2 (Compound n) x y = Constant r.
  Proof.
    split; [|intros (x & y & Ha & Hb & E); now apply (compound_wraps n a b x y)].
    assert (N : forall a b, without_wrapper u2 (Compound n) a b <> RWrapped r).
    { intros a' b' H. unfold without_wrapper in H.
      destruct a'; [destruct (by_conversion _); discriminate|destruct (by_conversion _); discriminate|].
      destruct (built_in_assign _ _ _); [discriminate|]. destruct (u2 _ _ _); discriminate. }
    unfold compound. destruct (constant_of a) as [x|]; [|intros H; now apply N in H].
    destruct (constant_of b) as [y|]; [|intros H; now apply N in H].
    destruct (expr2 u2 (Compound n) x y) eqn:E; intros H; [now apply N in H|now apply N in H|].
    exists x, y. split; [reflexivity|]. split; [reflexivity|congruence].
  Qed.

  (** A wrapper is never modified: on the left of an assignment that is no operator of a class there is an
      error. *)
  Lemma compound_builtin_rejected n v b : u2 (Compound n) v (converted b) = None ->
    compound u2 n (OWrap v) b = RIllFormed.
  Proof.
    intros H. unfold compound, without_wrapper. cbn [constant_of converted].
    destruct b as [w|w|w]; cbn [constant_of converted] in *; unfold expr2; rewrite H; reflexivity.
  Qed.

  Lemma compound_run n v w : built_in_assign (Compound n) v w = true ->
    compound u2 n (ORun v) (OWrap w) = RPlain.
  Proof. intros H. unfold compound, without_wrapper. cbn [constant_of converted]. now rewrite H. Qed.

  Lemma assign_wrapped_iff const same v b r :
    assign u2 const same v b = RWrapped r <->
    (const = true \/ same = false) /\ exists y, constant_of b = Some y /\ expr2 u2 Assign v y = Constant r.
  Proof.
    clear sv u1 ua. unfold assign.
    assert (G : (match constant_of b with Some y => match expr2 u2 Assign v y with Constant r => RWrapped r | _ => RIllFormed end
                 | None => RIllFormed end = RWrapped r) <->
                exists y, constant_of b = Some y /\ expr2 u2 Assign v y = Constant r).
    { destruct (constant_of b) as [y|]; [|split; [discriminate|intros (y & H & _); discriminate]].
      split.
      - intros H. exists y. split; [reflexivity|]. destruct (expr2 u2 Assign v y); congruence.
      - intros (y' & H1 & H2). injection H1 as <-. now rewrite H2. }
    destruct const, same; cbn [negb andb]; try (rewrite G; split; [intros H; split; [tauto|exact H]|now intros [_ H]]).
    split; [discriminate|]. intros [[H|H] _]; discriminate.
  Qed.

  Lemma assign_self v b : assign u2 false true v b = RSelf.
  Proof. reflexivity. Qed.

  Lemma assign_builtin_rejected const same v b : (const = true \/ same = false) ->
    (forall y, u2 Assign v y = None) -> assign u2 const same v b = RIllFormed.
  Proof.
    clear sv u1 ua. intros H N. unfold assign. replace (negb const && same) with false
      by (destruct H; subst; [reflexivity|now rewrite andb_false_r]).
    destruct (constant_of b); [|reflexivity]. unfold expr2. now rewrite N.
  Qed.

  (** -> *)
  Lemma arrow_native v p c : native_arrow ua v = Some (p, c) -> arrow ua v = Ok (p, true).
  Proof.
    unfold native_arrow, arrow. destruct (ua v) as [[cst res]|]; [|discriminate]. cbn [a_const a_result].
    destruct cst; [|discriminate]. now intros ->.
  Qed.

  Lemma arrow_value v : (forall f, ua v = Some f -> a_const f = false) -> arrow ua v = Ok (Member v, true).
  Proof. intros H. unfold arrow. destruct (ua v) as [f|]; [|reflexivity]. now rewrite (H f eq_refl). Qed.

  Lemma arrow_rejected_iff v :
    arrow ua v = Stop SIllFormed <-> exists f, ua v = Some f /\ a_const f = true /\ a_result f = None.
  Proof.
    unfold arrow. destruct (ua v) as [[cst res]|]; cbn [a_const a_result].
    - destruct cst, res as [[p c]|]; (split; [intros H; try discriminate; eexists; repeat split|intros (f & Hf & H1 & H2); injection Hf as <-; try discriminate; reflexivity]).
    - split; [discriminate|intros (f & Hf & _); discriminate].
  Qed.
End Proofs.

Lemma constant_of_iff a v : constant_of a = Some v <-> has_constant a v.
Proof.
  unfold has_constant. destruct a as [w|w|w]; cbn [constant_of]; split.
  1, 3, 5: intros H; first [discriminate|injection H as ->; tauto].
  all: intros [H|H]; first [discriminate|now injection H as ->].
Qed.

Lemma expr2_iff u2 op x y r : expr2 u2 op x y = Constant r <-> gives u2 op x y r.
Proof.
  unfold expr2, gives, called. destruct (u2 op x y) as [f|]; [|split; [discriminate|intros (f & H & _); discriminate] ].
  destruct (f_const f) eqn:Ec.
  - destruct (f_result f) as [r'|] eqn:Er; split.
    + intros H. injection H as ->. now exists f.
    + intros (f' & H & _ & Hr). injection H as <-. congruence.
    + discriminate.
    + intros (f' & H & _ & Hr). injection H as <-. congruence.
  - split; [discriminate|]. intros (f' & H & Hc & _). injection H as <-. congruence.
Qed.

Lemma compound_gives_iff u2 n a b r :
  compound u2 n a b = RWrapped r <-> exists x y, has_constant a x /\ has_constant b y /\ gives u2 (Compound n) x y r.
Proof.
  rewrite compound_wrapped_iff. split; intros (x & y & Ha & Hb & E); exists x, y.
  - now rewrite <- !constant_of_iff, <- expr2_iff.
  - now rewrite !constant_of_iff, expr2_iff.
Qed.

Lemma assign_gives_iff u2 const same v b r :
  assign u2 const same v b = RWrapped r <->
  (const = true \/ same = false) /\ exists y, has_constant b y /\ gives u2 Assign v y r.
Proof.
  rewrite assign_wrapped_iff. split; intros (H & y & Hb & E); (split; [exact H|]); exists y.
  - now rewrite <- constant_of_iff, <- expr2_iff.
  - now rewrite constant_of_iff, expr2_iff.
Qed.

Lemma built_in_iff n v w : built_in_assign (Compound n) v w = true <-> built_in n v w.
Proof.
  split.
  - destruct v as [t x|t d|p], w as [t' y|t' d'|p']; cbn; try discriminate; intros H.
    + constructor.
    + constructor. apply Bool.orb_true_iff in H as [H|H]; apply Z.eqb_eq in H; auto.
  - intros [t x t' y|p t y [->| ->] ]; reflexivity.
Qed.

(** A variable on the left, whatever is on the right. *)
Lemma compound_run_iff u2 n v b :
  (compound u2 n (ORun v) b = RPlain <-> built_in n v (converted b) \/ u2 (Compound n) v (converted b) <> None)
  /\ (compound u2 n (ORun v) b = RPlain \/ compound u2 n (ORun v) b = RIllFormed).
Proof.
  unfold compound, without_wrapper. cbn [constant_of converted]. rewrite <- built_in_iff.
  destruct (built_in_assign (Compound n) v (converted b)); [split; [tauto|now left]|].
  destruct (u2 (Compound n) v (converted b)) as [f|].
  - split; [|now left]. split; [intros _; right; discriminate|reflexivity].
  - split; [|now right]. split; [discriminate|]. intros [H|H]; [discriminate|now destruct H].
Qed.
