(** Proofs for C62. *)
From Verif Require Import Base StructOpModel StructOpSpec.

Section proofs.
  Context {A R : Type} (zero dummy : A).
  Implicit Types (o : @operators A R) (x y : @operand A).

  Ltac ops o := destruct o as [ [ [ [|] ?]|] [ [ [|] ?]|] [ [ [|] ?]|] ].

  (** Structs on both sides: one of the forwarding operators, if the struct has the operator. *)
  Lemma resolve_structs : forall o x y, struct_like x -> struct_like y -> vectorized x \/ vectorized y ->
    resolve (declared_of o) (kind_of x) (kind_of y)
    = match o_ss o with
      | Some _ => Some (match x, y with BaseArg _, _ => Fwd false true | _, BaseArg _ => Fwd true false | _, _ => Fwd true true end)
      | None => None
      end.
  Proof.
    intros o x y X Y V. ops o;
      (destruct x as [l|l|s|v|a|a|a]; try destruct X; destruct y as [l'|l'|s'|v'|a'|a'|a']; try destruct Y;
       try reflexivity; destruct V as [ [k E]|[k E] ]; discriminate).
  Qed.

  Lemma zip_length : forall (X Y : Type) (f : X -> Y -> R) xs ys n, length xs = n -> length ys = n ->
    length (zip_with f xs ys) = n.
  Proof. intros X Y f xs ys n E F. unfold zip_with. rewrite map_length, combine_length. lia. Qed.

  Lemma zip_nth : forall (X Y : Type) (f : X -> Y -> R) xs ys i dx dy, (i < length xs)%nat -> length xs = length ys ->
    nth_error (zip_with f xs ys) i = Some (f (nth i xs dx) (nth i ys dy)).
  Proof.
    intros X Y f xs. induction xs as [|a xs IH]; intros ys i dx dy L E; [cbn in L; lia|].
    destruct ys as [|b ys]; [discriminate|]. destruct i as [|i]; [reflexivity|].
    cbn in *. apply (IH ys i dx dy); lia.
  Qed.

  Lemma to_vec_length : forall n m x, has_lanes n x -> struct_like x -> length (to_vec zero n m x) = n.
  Proof.
    intros n m x H S. destruct x; try destruct S; cbn in *; try exact H; try apply repeat_length.
  Qed.

  Lemma nth_repeat' : forall (X : Type) (a d : X) n i, (i < n)%nat -> nth i (repeat a n) d = a.
  Proof. intros X a d n. induction n as [|n IH]; intros i L; [lia|]. destruct i; [reflexivity|]. cbn. apply IH. lia. Qed.

  Lemma lane_struct : forall n m x i, has_lanes n x -> struct_like x -> (i < n)%nat ->
    lane dummy i x = StructArg (nth i (to_vec zero n m x) []).
  Proof.
    intros n m x i H S L. destruct x; try destruct S; cbn in *; try reflexivity.
    now rewrite nth_repeat'.
  Qed.

  Lemma structs_agree : forall o n m x y, has_lanes n x -> has_lanes n y -> struct_like x -> struct_like y ->
    vectorized x \/ vectorized y ->
    agrees dummy o n x y (vector_op zero o n m x y).
  Proof.
    intros o n m x y Lx Ly Sx Sy V. unfold vector_op. rewrite (resolve_structs o x y Sx Sy V).
    destruct (o_ss o) as [ [t f]|] eqn:E.
    - assert (F : exists l r, match x, y with BaseArg _, _ => Fwd false true | _, BaseArg _ => Fwd true false
                                          | _, _ => Fwd true true end = Fwd l r)
        by (destruct x; try destruct Sx; destruct y; try destruct Sy; eauto).
      destruct F as (l & r & ->). cbn. split.
      + apply zip_length; apply to_vec_length; assumption.
      + intros i L. rewrite (zip_nth _ _ f _ _ i [] []) by (rewrite !to_vec_length; auto).
        rewrite (lane_struct n m x i Lx Sx L), (lane_struct n m y i Ly Sy L). cbn. now rewrite E.
    - cbn. split; [reflexivity|]. intros i L.
      rewrite (lane_struct n m x i Lx Sx L), (lane_struct n m y i Ly Sy L). cbn. now rewrite E.
  Qed.

  (** The result of an operator that returns the struct is a vectorized_struct again. *)
  Lemma structs_closed : forall o n m x y rs k, struct_like x -> struct_like y -> vectorized x \/ vectorized y ->
    vector_op zero o n m x y = Ok (rs, k) -> k = true.
  Proof.
    intros o n m x y rs k Sx Sy V H. unfold vector_op in H. rewrite (resolve_structs o x y Sx Sy V) in H.
    destruct (o_ss o) as [ [t f]|] eqn:E; [|discriminate].
    destruct x; try destruct Sx; destruct y; try destruct Sy; inversion H; reflexivity.
  Qed.

  Lemma resolve_right : forall o l y, o_ss o = None -> element_like y ->
    resolve (declared_of o) OVec (kind_of y)
    = match o_se o with
      | Some (t, _) => if t && negb (match y with SimdArg _ => true | _ => false end) then None else Some (UserVec SelfEl)
      | None => None
      end /\ vectorized (VecArg l : @operand A).
  Proof.
    intros o l y E Y. split; [|now exists l].
    ops o; try discriminate; destruct y; try destruct Y; reflexivity.
  Qed.

  Lemma resolve_left : forall o x, o_ss o = None -> element_like x ->
    resolve (declared_of o) (kind_of x) OVec
    = match o_es o with
      | Some (t, _) => if t && negb (match x with SimdArg _ => true | _ => false end) then None else Some (UserVec ElSelf)
      | None => None
      end.
  Proof.
    intros o x E X. ops o; try discriminate; destruct x; try destruct X; reflexivity.
  Qed.

  Lemma to_simd_length : forall n x, has_lanes n x -> element_like x -> length (to_simd n x) = n.
  Proof. intros n x H S. destruct x; try destruct S; cbn in *; try exact H; apply repeat_length. Qed.

  (** Without S op S, and with S op T declared as a friend, elements on the right act on every lane. *)
  Lemma element_right_agrees : forall o n m l y, has_lanes n (VecArg l : @operand A) -> has_lanes n y -> element_like y ->
    o_ss o = None -> (forall g, o_se o <> Some (true, g)) ->
    agrees dummy o n (VecArg l) y (vector_op zero o n m (VecArg l) y).
  Proof.
    intros o n m l y Lx Ly Y E T. unfold vector_op. cbn [kind_of]. destruct (resolve_right o l y E Y) as [-> _].
    cbn in Lx. destruct (o_se o) as [ [ [|] f]|] eqn:F.
    - exfalso. now apply (T f).
    - cbn [andb negb agrees to_vec]. split.
      + apply zip_length; [exact Lx|now apply to_simd_length].
      + intros i L. rewrite (zip_nth _ _ f _ _ i [] dummy) by (rewrite ?to_simd_length; auto; lia).
        destruct y; try destruct Y; cbn in *; rewrite F; try reflexivity; now rewrite nth_repeat'.
    - cbn [andb negb agrees]. split; [reflexivity|]. intros i L. destruct y; try destruct Y; cbn; now rewrite F.
  Qed.

  Lemma element_left_agrees : forall o n m l x, has_lanes n (VecArg l : @operand A) -> has_lanes n x -> element_like x ->
    o_ss o = None -> (forall g, o_es o <> Some (true, g)) ->
    agrees dummy o n x (VecArg l) (vector_op zero o n m x (VecArg l)).
  Proof.
    intros o n m l x Lx Ly X E T. unfold vector_op. cbn [kind_of]. rewrite (resolve_left o x E X).
    cbn in Lx. destruct (o_es o) as [ [ [|] f]|] eqn:F.
    - exfalso. now apply (T f).
    - cbn [andb negb agrees to_vec]. split.
      + apply zip_length; [now apply to_simd_length|exact Lx].
      + intros i L. rewrite (zip_nth _ _ f _ _ i dummy []) by (rewrite ?to_simd_length; auto; lia).
        destruct x; try destruct X; cbn in *; rewrite F; try reflexivity; now rewrite nth_repeat'.
    - cbn [andb negb agrees]. split; [reflexivity|]. intros i L. destruct x; try destruct X; cbn; now rewrite F.
  Qed.

  Lemma zip_repeat_r : forall (X Y : Type) (f : X -> Y -> R) xs (b : Y) n, length xs = n ->
    zip_with f xs (repeat b n) = map (fun a => f a b) xs.
  Proof.
    intros X Y f xs. induction xs as [|a xs IH]; intros b n E; [reflexivity|].
    destruct n as [|n]; [discriminate|]. cbn in *. f_equal. apply IH. lia.
  Qed.

  Lemma zip_repeat_l : forall (X Y : Type) (f : X -> Y -> R) (a : X) ys n, length ys = n ->
    zip_with f (repeat a n) ys = map (fun b => f a b) ys.
  Proof.
    intros X Y f a ys. induction ys as [|b ys IH]; intros n E.
    - subst n. reflexivity.
    - destruct n as [|n]; [discriminate|]. cbn in *. f_equal. apply IH. lia.
  Qed.

  (** With S op S, a value becomes the struct with that first member and zero otherwise. *)
  Lemma element_right_hijacked : forall o n m l a t f, length l = n -> o_ss o = Some (t, f) ->
    vector_op zero o n m (VecArg l) (SameArg a) = Ok (map (fun s => f s (first_member zero m a)) l, true)
    /\ vector_op zero o n m (VecArg l) (IntArg a) = Ok (map (fun s => f s (first_member zero m a)) l, true).
  Proof.
    intros o n m l a t f L E. rewrite <- (zip_repeat_r _ _ f l (first_member zero m a) n L).
    ops o; cbn in E; try discriminate; inversion E; subst; split; reflexivity.
  Qed.

  Lemma element_left_hijacked : forall o n m l a t f, length l = n -> o_ss o = Some (t, f) ->
    vector_op zero o n m (SameArg a) (VecArg l) = Ok (map (fun s => f (first_member zero m a) s) l, true)
    /\ vector_op zero o n m (IntArg a) (VecArg l) = Ok (map (fun s => f (first_member zero m a) s) l, true).
  Proof.
    intros o n m l a t f L E. rewrite <- (zip_repeat_l _ _ f (first_member zero m a) l n L).
    ops o; cbn in E; try discriminate; inversion E; subst; split; reflexivity.
  Qed.

  Lemma simd_ambiguous : forall o n m l v, o_ss o <> None ->
    (o_se o <> None -> vector_op zero o n m (VecArg l) (SimdArg v) = Stop SIllFormed)
    /\ (o_es o <> None -> vector_op zero o n m (SimdArg v) (VecArg l) = Stop SIllFormed).
  Proof. intros o n m l v S. ops o; cbn in S; try congruence; split; intros T; cbn in T; try congruence; reflexivity. Qed.

  (** A value that does not broadcast is never accepted. *)
  Lemma other_rejected : forall o n m l a,
    vector_op zero o n m (VecArg l) (OtherArg a) = Stop SIllFormed
    /\ vector_op zero o n m (OtherArg a) (VecArg l) = Stop SIllFormed.
  Proof. intros o n m l a. ops o; split; reflexivity. Qed.

  Lemma template_rejected : forall o n m l a g, o_ss o = None -> o_se o = Some (true, g) ->
    vector_op zero o n m (VecArg l) (SameArg a) = Stop SIllFormed.
  Proof. intros o n m l a g E F. ops o; cbn in E, F; try discriminate; reflexivity. Qed.
End proofs.
