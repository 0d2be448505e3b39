(** More proofs for C62: the scalar operators by the same rules, operands of the base type, simds that become
    structs. *)
From Verif Require Import Base StructOpModel StructOpSpec StructOpProofs.

Section proofs.
  Context {A R : Type} (zero dummy : A).
  Implicit Types (o : @operators A R) (x y : @operand A).

  Ltac ops o := destruct o as [ [ [ [|] ?]|] [ [ [|] ?]|] [ [ [|] ?]|] ].

  Lemma scalar_same_rules : forall o x y, scalar_operand x -> scalar_operand y ->
    (exists s, x = StructArg s) \/ (exists s, y = StructArg s) ->
    (scalar_op o x y <> None <->
     exists s, resolve (declared_of o) (kind_of x) (kind_of y) = Some (UserScalar s)).
  Proof.
    intros o x y X Y S.
    assert (D : match resolve (declared_of o) (kind_of x) (kind_of y) with
                | Some (UserScalar _) => scalar_op o x y <> None
                | _ => scalar_op o x y = None
                end).
    { ops o; destruct x; try destruct X; destruct y; try destruct Y;
        try (destruct S as [ [? E]|[? E] ]; discriminate); vm_compute; (discriminate || reflexivity). }
    destruct (resolve (declared_of o) (kind_of x) (kind_of y)) as [ [l r|s|s]|].
    - split; [congruence|]. intros (s & E). discriminate.
    - split; [congruence|]. intros (s' & E). discriminate.
    - split; [|auto]. intros _. now exists s.
    - split; [congruence|]. intros (s' & E). discriminate.
  Qed.

  Lemma resolve_base_right : forall o y, element_like y ->
    resolve (declared_of o) OBase (kind_of y)
    = match o_se o with
      | Some (t, _) => if t && negb (match y with SimdArg _ => true | _ => false end) then None else Some (UserVec SelfEl)
      | None => None
      end.
  Proof. intros o y Y. ops o; destruct y; try destruct Y; reflexivity. Qed.

  Lemma resolve_base_left : forall o x, element_like x ->
    resolve (declared_of o) (kind_of x) OBase
    = match o_es o with
      | Some (t, _) => if t && negb (match x with SimdArg _ => true | _ => false end) then None else Some (UserVec ElSelf)
      | None => None
      end.
  Proof. intros o y Y. ops o; destruct y; try destruct Y; reflexivity. Qed.

  Lemma base_element_right : forall o n m l y, length l = n -> has_lanes n y -> element_like y ->
    (forall g, o_se o <> Some (true, g)) \/ (exists v, y = SimdArg v) ->
    agrees dummy o n (BaseArg l) y (vector_op zero o n m (BaseArg l) y).
  Proof.
    intros o n m l y Lx Ly Y T. unfold vector_op. cbn [kind_of]. rewrite (resolve_base_right o y Y).
    destruct (o_se o) as [ [t f]|] eqn:F.
    - replace (t && negb (match y with SimdArg _ => true | _ => false end)) with false.
      + cbn [agrees to_vec]. split; [apply zip_length; [exact Lx|now apply to_simd_length]|].
        intros i L. rewrite (zip_nth _ _ f _ _ i [] dummy) by (rewrite ?to_simd_length; auto; lia).
        destruct T as [T|[v ->] ].
        * destruct t; [now destruct (T f)|]. destruct y; try destruct Y; cbn in *; rewrite F; try reflexivity;
            now rewrite nth_repeat'.
        * cbn. now rewrite F.
      + destruct T as [T|[v ->] ]; [destruct t; [now destruct (T f)|reflexivity]|].
        now rewrite Bool.andb_false_r.
    - cbn [agrees]. split; [reflexivity|]. intros i L. destruct y; try destruct Y; cbn; now rewrite F.
  Qed.

  Lemma base_element_left : forall o n m l x, length l = n -> has_lanes n x -> element_like x ->
    (forall g, o_es o <> Some (true, g)) \/ (exists v, x = SimdArg v) ->
    agrees dummy o n x (BaseArg l) (vector_op zero o n m x (BaseArg l)).
  Proof.
    intros o n m l x Lx Ly X T. unfold vector_op. cbn [kind_of]. rewrite (resolve_base_left o x X).
    destruct (o_es o) as [ [t f]|] eqn:F.
    - replace (t && negb (match x with SimdArg _ => true | _ => false end)) with false.
      + cbn [agrees to_vec]. split; [apply zip_length; [now apply to_simd_length|exact Lx]|].
        intros i L. rewrite (zip_nth _ _ f _ _ i dummy []) by (rewrite ?to_simd_length; auto; lia).
        destruct T as [T|[v ->] ].
        * destruct t; [now destruct (T f)|]. destruct x; try destruct X; cbn in *; rewrite F; try reflexivity;
            now rewrite nth_repeat'.
        * cbn. now rewrite F.
      + destruct T as [T|[v ->] ]; [destruct t; [now destruct (T f)|reflexivity]|].
        now rewrite Bool.andb_false_r.
    - cbn [agrees]. split; [reflexivity|]. intros i L. destruct x; try destruct X; cbn; now rewrite F.
  Qed.

  (** Two operands of the base type: the struct's operator itself. *)
  Lemma base_base : forall o n m l l', length l = n -> length l' = n ->
    agrees dummy o n (BaseArg l) (BaseArg l') (vector_op zero o n m (BaseArg l) (BaseArg l'))
    /\ forall rs k, vector_op zero o n m (BaseArg l) (BaseArg l') = Ok (rs, k) -> k = false.
  Proof.
    intros o n m l l' L L'. unfold vector_op. cbn [kind_of].
    replace (resolve (declared_of o) OBase OBase)
      with (match o_ss o with Some _ => Some (UserVec SelfSelf) | None => None end) by (ops o; reflexivity).
    destruct (o_ss o) as [ [t f]|] eqn:F.
    - cbn [agrees to_vec]. split; [|intros rs k E; now inversion E].
      split; [now apply zip_length|]. intros i Hi.
      rewrite (zip_nth _ _ f _ _ i [] []) by lia. cbn. now rewrite F.
    - split; [|discriminate]. cbn. split; [reflexivity|]. intros i _. now rewrite F.
  Qed.

  Lemma zip_map_r : forall (X Y Z : Type) (f : X -> Y -> R) (g : Z -> Y) xs zs,
    zip_with f xs (map g zs) = map (fun p => f (fst p) (g (snd p))) (combine xs zs).
  Proof.
    intros X Y Z f g. unfold zip_with. induction xs as [|a xs IH]; intros zs; [reflexivity|].
    destruct zs as [|b zs]; [reflexivity|]. cbn. f_equal. apply IH.
  Qed.

  Lemma zip_map_l : forall (X Y Z : Type) (f : X -> Y -> R) (g : Z -> X) zs ys,
    zip_with f (map g zs) ys = map (fun p => f (g (fst p)) (snd p)) (combine zs ys).
  Proof.
    intros X Y Z f g. unfold zip_with. induction zs as [|a zs IH]; intros ys; [reflexivity|].
    destruct ys as [|b ys]; [reflexivity|]. cbn. f_equal. apply IH.
  Qed.

  Lemma simd_first_member : forall o n m l v t f, o_ss o = Some (t, f) ->
    (o_se o = None -> vector_op zero o n m (VecArg l) (SimdArg v)
       = Ok (map (fun p => f (fst p) (snd p :: repeat zero (m - 1))) (combine l v), true))
    /\ (o_es o = None -> vector_op zero o n m (SimdArg v) (VecArg l)
       = Ok (map (fun p => f (fst p :: repeat zero (m - 1)) (snd p)) (combine v l), true)).
  Proof.
    intros o n m l v t f E.
    assert (M := zip_map_r _ _ _ f (first_member zero m) l v).
    assert (M' := zip_map_l _ _ _ f (first_member zero m) v l). unfold first_member in M, M'.
    rewrite <- M, <- M'.
    ops o; cbn in E; try discriminate; inversion E; subst; split; intros F; cbn in F; try discriminate; reflexivity.
  Qed.
End proofs.
