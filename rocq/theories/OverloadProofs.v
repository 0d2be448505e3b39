(** Overload resolution of where, decided. *)
From Verif Require Import Base OverloadModel OverloadSpec.
From Coq Require Import ZifyBool.

Lemma abi_eqb_iff a b : abi_eqb a b = true <-> a = b.
Proof. destruct a as [|m], b as [|n]; cbn; split; try discriminate; try reflexivity; [intros; f_equal; lia|intros [=]; lia]. Qed.
Lemma abi_eqb_refl a : abi_eqb a a = true.
Proof. now apply abi_eqb_iff. Qed.

Theorem reductions_iff s : reduction_accepts s = true <-> s = SBool \/ s = SPointer.
Proof. destruct s; cbn; split; intros H; auto; try discriminate; destruct H as [H|H]; discriminate. Qed.

Theorem reductions_arithmetic s : arithmetic s -> (reduction_accepts s = true <-> s = SBool).
Proof. intros [->|[->|[->| ->] ] ]; cbn; split; intros H; auto; discriminate. Qed.

Lemma cond_mask_iff k v t a : v = VSimd t a \/ v = VMask t a ->
  (mask_for k v /\ (cond_mask k t a = Some (Std Exact) \/ cond_mask k t a = Some User))
  \/ (~ mask_for k v /\ cond_mask k t a = None).
Proof.
  intros Hv.
  assert (E : mask_for k v <-> (k = CMask t a \/ exists u n, a = AFixed n /\ k = CMask u a)).
  { destruct Hv as [->| ->]; reflexivity. }
  rewrite E. clear E Hv. destruct k as [s|u b]; cbn [cond_mask].
  - right. split; [|reflexivity]. intros [H|(u & n & _ & H)]; discriminate.
  - destruct (Z.eqb_spec u t) as [->|Hu]; cbn [andb].
    + destruct (abi_eqb a b) eqn:Eab.
      * apply abi_eqb_iff in Eab. subst b. left. split; [now left|now left].
      * right. assert (a <> b) by (intros ->; now rewrite abi_eqb_refl in Eab).
        split; [|destruct a; reflexivity]. intros [H'|(u & n & Ha & H')]; injection H' as; congruence.
    + destruct (abi_eqb a b) eqn:Eab.
      * apply abi_eqb_iff in Eab. subst b. destruct a as [|n].
        -- right. split; [|reflexivity]. intros [H'|(u' & n & Ha & H')]; [injection H' as; congruence|discriminate].
        -- left. split; [right; now exists u, n|now right].
      * right. assert (a <> b) by (intros ->; now rewrite abi_eqb_refl in Eab).
        split; [|destruct a; reflexivity]. intros [H'|(u' & n & Ha & H')]; injection H' as; congruence.
Qed.

Lemma no_scalar_mask s v : ~ mask_for (CScalar s) v.
Proof. destruct v; cbn; [| |tauto]; intros [H|(u & n & _ & H)]; discriminate. Qed.

(** Every call. *)
Theorem where_value k v c :
  (mask_for k v /\ exists t a, (v = VSimd t a \/ v = VMask t a) /\
     where_call k v c = Accepted (mkexpr (match c with Lvalue => true | _ => false end) (Some (t, a)) v))
  \/ ((k = CScalar SBool \/ k = CScalar SPointer) /\ ~ is_simd v /\
     where_call k v c = Accepted (mkexpr (match c with Lvalue => true | _ => false end) None v))
  \/ (~ mask_for k v /\ (~ (k = CScalar SBool \/ k = CScalar SPointer) \/ is_simd v) /\ where_call k v c = Rejected).
Proof.
  destruct k as [s|u b].
  - right. destruct v as [t a|t a|t].
    + right. split; [apply no_scalar_mask|]. split; [right; now exists t, a|]. destruct s, c; reflexivity.
    + assert (D : (s = SBool \/ s = SPointer) \/ ~ (s = SBool \/ s = SPointer)) by (destruct s; auto; right; intros [H|H]; discriminate).
      destruct D as [D|D].
      * left. split; [destruct D as [->| ->]; auto|]. split; [intros (t' & a' & H); discriminate|].
        destruct D as [->| ->], c; reflexivity.
      * right. split; [apply no_scalar_mask|]. split; [left; intros [H|H]; injection H as ->; auto|].
        destruct s, c; try reflexivity; exfalso; auto.
    + assert (D : (s = SBool \/ s = SPointer) \/ ~ (s = SBool \/ s = SPointer)) by (destruct s; auto; right; intros [H|H]; discriminate).
      destruct D as [D|D].
      * left. split; [destruct D as [->| ->]; auto|]. split; [intros (t' & a' & H); discriminate|].
        destruct D as [->| ->], c; reflexivity.
      * right. split; [apply no_scalar_mask|]. split; [left; intros [H|H]; injection H as ->; auto|].
        destruct s, c; try reflexivity; exfalso; auto.
  - destruct v as [t a|t a|t].
    + destruct (cond_mask_iff (CMask u b) (VSimd t a) t a (or_introl eq_refl)) as [[H E]|[H E]].
      * left. split; [exact H|]. exists t, a. split; [now left|]. unfold where_call, where_candidates.
        destruct E as [-> | ->], c; reflexivity.
      * right. right. split; [exact H|]. split; [left; intros [H'|H']; discriminate|].
        unfold where_call, where_candidates. rewrite E. destruct c; reflexivity.
    + destruct (cond_mask_iff (CMask u b) (VMask t a) t a (or_intror eq_refl)) as [[H E]|[H E]].
      * left. split; [exact H|]. exists t, a. split; [now right|]. unfold where_call, where_candidates.
        destruct E as [-> | ->], c; reflexivity.
      * right. right. split; [exact H|]. split; [left; intros [H'|H']; discriminate|].
        unfold where_call, where_candidates. rewrite E. destruct c; reflexivity.
    + right. right. split; [intros []|]. split; [left; intros [H'|H']; discriminate|]. destruct c; reflexivity.
Qed.

Theorem where_iff k v c : (exists e, where_call k v c = Accepted e) <->
  mask_for k v \/ ((k = CScalar SBool \/ k = CScalar SPointer) /\ ~ is_simd v).
Proof.
  destruct (where_value k v c) as [(Hm & t & a & _ & E)|[(Hk & Hv & E)|(Hm & Hk & E)]]; rewrite E.
  - split; [now left|]. intros _. now eexists.
  - split; [now right|]. intros _. now eexists.
  - split; [intros [e H]; discriminate|]. intros [H|[H Hs]]; [contradiction|]. destruct Hk; contradiction.
Qed.

Theorem where_arithmetic s v c : arithmetic s ->
  ((exists e, where_call (CScalar s) v c = Accepted e) <-> s = SBool /\ ~ is_simd v).
Proof.
  intros Hs. rewrite where_iff. split.
  - intros [H|[[H|H] Hv]]; [now apply no_scalar_mask in H|injection H as ->; auto|].
    injection H as ->. destruct Hs as [H|[H|[H|H]]]; discriminate.
  - intros [-> H]. right. split; [now left|assumption].
Qed.

Theorem where_writable k v c e : where_call k v c = Accepted e ->
  (e_writable e = true <-> c = Lvalue) /\ e_value e = v /\ (e_mask e = None <-> exists s, k = CScalar s)
  /\ forall t a, e_mask e = Some (t, a) -> v = VSimd t a \/ v = VMask t a.
Proof.
  intros H. destruct (where_value k v c) as [(Hm & t & a & Hv & E)|[(Hk & Hv & E)|(Hm & Hk & E)]]; rewrite E in H;
    [| |discriminate]; injection H as <-; cbn [e_writable e_value e_mask].
  - split; [destruct c; split; congruence|]. split; [reflexivity|].
    split; [split; [discriminate|intros [s ->]; now apply no_scalar_mask in Hm]|]. intros t' a' [= <- <-]. exact Hv.
  - split; [destruct c; split; congruence|]. split; [reflexivity|].
    split; [split; [intros _; destruct Hk as [->| ->]; now eexists|reflexivity]|discriminate].
Qed.
