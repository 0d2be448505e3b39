(** Facts about struct_size and simd_version. *)
From Verif Require Import Base BaseFacts StructModel.
From Coq Require Import ZifyBool ZifyNat.
Ltac Zify.zify_post_hook ::= idtac.

(** [r] is the largest valid size in [lo, hi], or 0 if there is none. *)
Definition best (valid : Z -> bool) (lo hi r : Z) : Prop :=
  (lo <= r <= hi /\ valid r = true /\ forall k, r < k <= hi -> valid k = false)
  \/ (r = 0 /\ forall k, lo <= k <= hi -> valid k = false).

(** The valid sizes are contiguous. *)
Definition contiguous (valid : Z -> bool) (lo hi : Z) : Prop :=
  forall a b c, lo <= a -> a <= b <= c -> c <= hi -> valid a = true -> valid c = true -> valid b = true.

Lemma sz_id x : 0 <= x < two64 -> sz x = x.
Proof. intros H. unfold sz. now apply Z.mod_small. Qed.

Lemma half_bounds k : 0 <= k -> 0 <= k / 2 /\ 2 * (k / 2) <= k /\ k <= 2 * (k / 2) + 1.
Proof. intros H. pose proof (Z.div_mod k 2 ltac:(lia)). pose proof (Z.mod_pos_bound k 2 ltac:(lia)). lia. Qed.

Lemma struct_size_best valid : forall fuel lo hi n, 0 <= lo -> lo <= n <= hi -> hi < two64 - 1 ->
  hi - lo < Z.of_nat fuel -> contiguous valid lo hi ->
  exists r ps, struct_size valid fuel lo hi n = Ok (r, ps) /\ best valid lo hi r
    /\ Forall (fun p => lo <= p <= hi) ps /\ NoDup ps.
Proof.
  induction fuel as [|fuel IH]; intros lo hi n Hlo Hn Hhi Hf Hc; [lia|].
  cbn [struct_size]. cbv zeta.
  rewrite (sz_id (n - lo)), (sz_id (hi - n)) by lia. rewrite (sz_id (hi - n + 1)) by lia.
  destruct (half_bounds (n - lo) ltac:(lia)) as (HL1 & HL2 & HL3).
  destruct (half_bounds (hi - n + 1) ltac:(lia)) as (HR1 & HR2 & HR3).
  set (hl := (n - lo) / 2) in *. set (hr := (hi - n + 1) / 2) in *.
  rewrite (sz_id (lo + hl)), (sz_id (n + hr)), (sz_id (n + 1)) by lia.
  assert (Hright : n < hi -> exists r ps, struct_size valid fuel (n + 1) hi (n + hr) = Ok (r, ps)
             /\ best valid (n + 1) hi r /\ Forall (fun p => n + 1 <= p <= hi) ps /\ NoDup ps).
  { intros Hlt. apply IH; try lia. intros a b c Ha Hb Hc'. apply (Hc a b c); lia. }
  assert (Hw : forall l h, lo <= l -> h <= hi -> forall ps, Forall (fun p => l <= p <= h) ps ->
               Forall (fun p => lo <= p <= hi) ps).
  { intros l h H1 H2 ps. apply Forall_impl. intros p Hp. lia. }
  assert (Hcons : forall ps, NoDup ps -> Forall (fun p => n + 1 <= p <= hi) ps -> NoDup (n :: ps)).
  { intros ps Hd HF. constructor; [|assumption]. intros Hin. rewrite Forall_forall in HF.
    specialize (HF n Hin). lia. }
  destruct (valid n) eqn:Ev.
  - destruct (Z.eqb_spec n hi) as [->|Hne].
    + exists hi, [hi]. split; [reflexivity|]. split.
      * left. repeat split; try lia; try assumption.
      * split; repeat constructor; try lia. intros [].
    + destruct (Hright ltac:(lia)) as (r & ps & -> & Hb & HF & Hd). cbn [bindR].
      destruct (Z.eqb_spec r 0) as [->|Hr].
      * exists n, (n :: ps). split; [reflexivity|]. split.
        -- left. repeat split; try lia; try assumption. intros k Hk. destruct Hb as [[Hb _]|[_ Hb]]; [lia|].
           apply Hb. lia.
        -- split; [constructor; [lia|]; apply (Hw (n + 1) hi); try assumption; lia|]. now apply Hcons.
      * exists r, (n :: ps). split; [reflexivity|]. split.
        -- left. destruct Hb as [(Hb1 & Hb2 & Hb3)|[Hb _]]; [|lia]. repeat split; try lia; assumption.
        -- split; [constructor; [lia|]; apply (Hw (n + 1) hi); try assumption; lia|]. now apply Hcons.
  - destruct (Z.eqb_spec n lo) as [->|Hnl].
    + destruct (Z.eqb_spec lo hi) as [<-|Hne].
      * exists 0, [lo]. split; [reflexivity|]. split.
        -- right. split; [reflexivity|]. intros k Hk. replace k with lo by lia. assumption.
        -- split; repeat constructor; try lia. intros [].
      * destruct (Hright ltac:(lia)) as (r & ps & -> & Hb & HF & Hd). cbn [bindR].
        exists r, (lo :: ps). split; [reflexivity|]. split.
        -- destruct Hb as [(Hb1 & Hb2 & Hb3)|[-> Hb]]; [left; repeat split; try lia; assumption|].
           right. split; [reflexivity|]. intros k Hk. destruct (Z.eq_dec k lo) as [->|]; [assumption|]. apply Hb. lia.
        -- split; [constructor; [lia|]; apply (Hw (lo + 1) hi); try assumption; lia|]. now apply Hcons.
    + rewrite (sz_id (n - 1)) by lia.
      destruct (IH lo (n - 1) (lo + hl)) as (l & ps & -> & Hb & HF & Hd); try lia.
      { intros a b c Ha Hb' Hc'. apply (Hc a b c); lia. }
      cbn [bindR].
      assert (Hnotin : ~ In n ps).
      { intros Hin. rewrite Forall_forall in HF. specialize (HF n Hin). lia. }
      destruct (Z.ltb_spec 0 l) as [Hl|Hl].
      * exists l, (n :: ps). split; [reflexivity|]. split.
        -- left. destruct Hb as [(Hb1 & Hb2 & Hb3)|[Hb _]]; [|lia]. repeat split; try lia; try assumption.
           intros k Hk. destruct (Z.eq_dec k n) as [->|]; [assumption|].
           destruct (Z.lt_total k n) as [Hkn|[Hkn|Hkn]]; [apply Hb3; lia|lia|].
           destruct (valid k) eqn:Ek; [|reflexivity].
           rewrite (Hc l n k) in Ev by (assumption || lia). discriminate.
        -- split; [constructor; [lia|]; apply (Hw lo (n - 1)); try assumption; lia|]. now constructor.
      * assert (Hleft : (l = 0 /\ lo = 0 /\ valid 0 = true /\ forall k, 0 < k <= n - 1 -> valid k = false)
                        \/ forall k, lo <= k <= n - 1 -> valid k = false).
        { destruct Hb as [(Hb1 & Hb2 & Hb3)|[_ Hb]]; [|now right]. left.
          assert (l = 0) by lia. subst l. repeat split; try lia; assumption. }
        destruct (Z.eqb_spec n hi) as [->|Hne].
        -- exists 0, (hi :: ps). split; [reflexivity|]. split.
           ++ destruct Hleft as [(_ & -> & Hv & Hk)|Hk].
              ** left. repeat split; try lia; try assumption. intros k Hk'.
                 destruct (Z.eq_dec k hi) as [->|]; [assumption|]. apply Hk. lia.
              ** right. split; [reflexivity|]. intros k Hk'.
                 destruct (Z.eq_dec k hi) as [->|]; [assumption|]. apply Hk. lia.
           ++ split; [constructor; [lia|]; apply (Hw lo (hi - 1)); try assumption; lia|]. now constructor.
        -- destruct (Hright ltac:(lia)) as (r & ps2 & -> & Hb2 & HF2 & Hd2). cbn [bindR].
           exists r, (n :: ps ++ ps2). split; [reflexivity|]. split.
           ++ destruct Hleft as [(_ & -> & Hv & Hk)|Hk].
              ** destruct Hb2 as [(Hb21 & Hb22 & _)|[-> Hb2]].
                 { rewrite (Hc 0 n r) in Ev by (assumption || lia). discriminate. }
                 left. repeat split; try lia; try assumption. intros k Hk'.
                 destruct (Z.lt_total k n) as [|[->|]]; [apply Hk; lia|assumption|apply Hb2; lia].
              ** destruct Hb2 as [(Hb21 & Hb22 & Hb23)|[-> Hb2]].
                 { left. repeat split; try lia; assumption. }
                 right. split; [reflexivity|]. intros k Hk'.
                 destruct (Z.lt_total k n) as [|[->|]]; [apply Hk; lia|assumption|apply Hb2; lia].
           ++ split.
              ** constructor; [lia|]. apply Forall_app. split; [apply (Hw lo (n - 1))|apply (Hw (n + 1) hi)];
                   try assumption; lia.
              ** rewrite Forall_forall in HF, HF2. constructor.
                 { intros Hin. apply in_app_or in Hin. destruct Hin as [Hin|Hin]; [contradiction|].
                   specialize (HF2 n Hin). lia. }
                 clear - Hd Hd2 HF HF2. induction Hd as [|x l Hx Hd IH]; [assumption|]. cbn [app]. constructor.
                 { intros Hin. apply in_app_or in Hin. destruct Hin as [Hin|Hin]; [contradiction|].
                   specialize (HF2 x Hin). specialize (HF x (or_introl eq_refl)). lia. }
                 apply IH. intros y Hy. apply HF. now right.
Qed.

Lemma struct_size_v_best valid sizeof fuel : 0 < sizeof -> sizeof * 8 < two64 - 1 ->
  sizeof * 8 < Z.of_nat fuel -> contiguous valid 0 (sizeof * 8) ->
  exists r ps, struct_size_v valid fuel sizeof = Ok (r, ps) /\ best valid 0 (sizeof * 8) r
    /\ Forall (fun p => 0 <= p <= sizeof * 8) ps /\ NoDup ps.
Proof.
  intros H1 H2 H3 H4. unfold struct_size_v. rewrite (sz_id (sizeof * 8)) by lia.
  apply struct_size_best; try lia; assumption.
Qed.

(** An aggregate whose initialiser counts are exactly [a .. m]. *)
Lemma struct_size_interval valid sizeof fuel a m : 0 < sizeof -> sizeof * 8 < two64 - 1 ->
  sizeof * 8 < Z.of_nat fuel -> 0 <= a <= m -> m <= sizeof * 8 ->
  (forall k, valid k = true <-> a <= k <= m) ->
  exists ps, struct_size_v valid fuel sizeof = Ok (m, ps).
Proof.
  intros H1 H2 H3 Ha Hm Hv. destruct (struct_size_v_best valid sizeof fuel H1 H2 H3) as (r & ps & E & Hb & _).
  - intros x y z Hx Hy Hz Vx Vz. apply Hv. apply Hv in Vx. apply Hv in Vz. lia.
  - exists ps. rewrite E. do 2 f_equal. destruct Hb as [(Hb1 & Hb2 & Hb3)|[_ Hb]].
    + apply Hv in Hb2. destruct (Z.eq_dec r m) as [|Hne]; [assumption|]. exfalso.
      assert (X : valid m = false) by (apply Hb3; lia). rewrite (proj2 (Hv m)) in X by lia. discriminate.
    + exfalso. assert (X : valid m = false) by (apply Hb; lia). rewrite (proj2 (Hv m)) in X by lia. discriminate.
Qed.

(** ** simd_version *)

(** The lexicographic order. *)
Definition lex_lt (a b : version) : Prop :=
  major a < major b \/ major a = major b /\ (minor a < minor b \/ minor a = minor b /\ patchlevel a < patchlevel b).

Lemma v_lt_lex sp a b : v_lt sp a b = true <-> lex_lt a b.
Proof.
  destruct a as [a1 a2 a3], b as [b1 b2 b3]. unfold v_lt, v_spaceship, lex_lt. cbn [major minor patchlevel].
  destruct sp; [|lia]. destruct (Z.compare_spec a1 b1); [|split; [lia|reflexivity]|split; [discriminate|lia]].
  destruct (Z.compare_spec a2 b2); [|split; [lia|reflexivity]|split; [discriminate|lia]].
  destruct (Z.compare_spec a3 b3); (split; [discriminate|lia]) || (split; [lia|reflexivity]).
Qed.

Lemma v_eq_iff a b : v_eq a b = true <-> a = b.
Proof.
  destruct a as [a1 a2 a3], b as [b1 b2 b3]. unfold v_eq. cbn [major minor patchlevel]. split.
  - intros H. f_equal; lia.
  - intros H. injection H as -> -> ->. rewrite !Z.eqb_refl. reflexivity.
Qed.

Lemma lex_lt_ne a b : lex_lt a b -> a <> b.
Proof. intros H ->. unfold lex_lt in H. lia. Qed.

Lemma lex_total a b : lex_lt a b \/ a = b \/ lex_lt b a.
Proof.
  destruct a as [a1 a2 a3], b as [b1 b2 b3]. unfold lex_lt. cbn [major minor patchlevel].
  destruct (Z.lt_total a1 b1) as [|[->|]]; [left; lia| |right; right; lia].
  destruct (Z.lt_total a2 b2) as [|[->|]]; [left; lia| |right; right; lia].
  destruct (Z.lt_total a3 b3) as [|[->|]]; [left; lia| |right; right; lia]. right. left. reflexivity.
Qed.

Lemma v_le_lex sp a b : v_le sp a b = true <-> lex_lt a b \/ a = b.
Proof.
  destruct sp; unfold v_le.
  - pose proof (v_lt_lex true b a) as Hba. unfold v_lt in Hba.
    assert (Hs : v_spaceship b a = CompOpp (v_spaceship a b)).
    { unfold v_spaceship. rewrite (Z.compare_antisym (major a)), (Z.compare_antisym (minor a)), (Z.compare_antisym (patchlevel a)).
      destruct (major a ?= major b); try reflexivity. destruct (minor a ?= minor b); reflexivity. }
    rewrite Hs in Hba. destruct (lex_total a b) as [H|[H|H]].
    + split; [now left|]. intros _. pose proof (proj2 (v_lt_lex true a b) H) as Hlt. unfold v_lt in Hlt.
      destruct (v_spaceship a b); [reflexivity|reflexivity|discriminate].
    + split; [now right|]. intros _. subst b. unfold v_spaceship. now rewrite !Z.compare_refl.
    + apply Hba in H as E. destruct (v_spaceship a b); try discriminate. split; [discriminate|].
      intros [X| ->]; [exfalso; unfold lex_lt in *; lia|exfalso; unfold lex_lt in *; lia].
  - destruct a as [a1 a2 a3], b as [b1 b2 b3]. unfold lex_lt. cbn [major minor patchlevel]. split.
    + intros H. assert (D : a1 < b1 \/ a1 = b1 /\ (a2 < b2 \/ a2 = b2 /\ a3 < b3) \/ (a1 = b1 /\ a2 = b2 /\ a3 = b3)) by lia.
      destruct D as [D|[D|(-> & -> & ->)]]; [left; lia|left; lia|now right].
    + intros [H|H]; [lia|]. injection H as -> -> ->. lia.
Qed.

Lemma v_gt_lex sp a b : v_gt sp a b = v_lt sp b a.
Proof.
  destruct sp; [|reflexivity]. unfold v_gt, v_lt, v_spaceship.
  rewrite (Z.compare_antisym (major a)), (Z.compare_antisym (minor a)), (Z.compare_antisym (patchlevel a)).
  destruct (major a ?= major b); try reflexivity. destruct (minor a ?= minor b); try reflexivity.
  destruct (patchlevel a ?= patchlevel b); reflexivity.
Qed.
Lemma v_ge_lex sp a b : v_ge sp a b = v_le sp b a.
Proof.
  destruct sp; [|reflexivity]. unfold v_ge, v_le, v_spaceship.
  rewrite (Z.compare_antisym (major a)), (Z.compare_antisym (minor a)), (Z.compare_antisym (patchlevel a)).
  destruct (major a ?= major b); try reflexivity. destruct (minor a ?= minor b); try reflexivity.
  destruct (patchlevel a ?= patchlevel b); reflexivity.
Qed.

(** All six operators in terms of one order. *)
Lemma version_operators sp a b :
  (v_lt sp a b = true <-> lex_lt a b) /\ (v_gt sp a b = true <-> lex_lt b a) /\
  (v_le sp a b = true <-> lex_lt a b \/ a = b) /\ (v_ge sp a b = true <-> lex_lt b a \/ b = a) /\
  (v_eq a b = true <-> a = b) /\ (v_ne a b = true <-> a <> b).
Proof.
  split; [apply v_lt_lex|]. split; [rewrite v_gt_lex; apply v_lt_lex|]. split; [apply v_le_lex|].
  split; [rewrite v_ge_lex; apply v_le_lex|]. split; [apply v_eq_iff|].
  unfold v_ne. rewrite negb_true_iff. rewrite <- not_true_iff_false, v_eq_iff. tauto.
Qed.

Lemma lex_strict_total :
  (forall a, ~ lex_lt a a) /\ (forall a b c, lex_lt a b -> lex_lt b c -> lex_lt a c)
  /\ (forall a b, lex_lt a b \/ a = b \/ lex_lt b a).
Proof.
  split; [intros a H; unfold lex_lt in H; lia|]. split; [intros a b c H1 H2; unfold lex_lt in *; lia|].
  apply lex_total.
Qed.

Lemma version_decode v : 0 <= v ->
  v = major (simd_version v) * 65536 + minor (simd_version v) * 256 + patchlevel (simd_version v)
  /\ 0 <= minor (simd_version v) < 256 /\ 0 <= patchlevel (simd_version v) < 256 /\ 0 <= major (simd_version v).
Proof.
  intros Hv. cbn [major minor patchlevel simd_version]. unfold version_major, version_minor, version_patchlevel.
  pose proof (Z.div_mod v 65536 ltac:(lia)). pose proof (Z.mod_pos_bound v 65536 ltac:(lia)).
  set (q := v / 65536) in *. set (r := v mod 65536) in *.
  pose proof (Z.div_mod r 256 ltac:(lia)). pose proof (Z.mod_pos_bound r 256 ltac:(lia)).
  assert (v mod 256 = r mod 256).
  { rewrite H. replace (65536 * q + r) with (r + (256 * q) * 256) by lia. now rewrite Z.mod_add by lia. }
  assert (0 <= q) by (apply Z.div_pos; lia). lia.
Qed.

Lemma version_encode M m p : 0 <= M -> 0 <= m < 256 -> 0 <= p < 256 ->
  simd_version (M * 65536 + m * 256 + p) = mkversion M m p.
Proof.
  intros HM Hm Hp. pose proof (version_decode (M * 65536 + m * 256 + p) ltac:(lia)) as (E & H1 & H2 & H3).
  destruct (simd_version (M * 65536 + m * 256 + p)) as [a b c]. cbn [major minor patchlevel] in *.
  assert (a = M) by lia. assert (b = m) by lia. subst. f_equal. lia.
Qed.

Lemma version_number_order v w : 0 <= v -> 0 <= w -> (lex_lt (simd_version v) (simd_version w) <-> v < w).
Proof.
  intros Hv Hw. pose proof (version_decode v Hv) as (E1 & A1 & A2 & _).
  pose proof (version_decode w Hw) as (E2 & B1 & B2 & _).
  unfold lex_lt. rewrite E1 at 6. rewrite E2 at 6.
  set (x := simd_version v) in *. set (y := simd_version w) in *. clearbody x y. lia.
Qed.
