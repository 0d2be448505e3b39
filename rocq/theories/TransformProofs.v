(** transform: the steps are those of for_each, shifted; execution. *)
From Verif Require Import Base BaseFacts ExecModel ExecProofs ExecForEach ExecRun ExecSpec ExecThm
  TransformModel TransformSpec.
From Coq Require Import ZifyBool ZifyNat.
Ltac Zify.zify_post_hook ::= idtac.

Section Steps.
  Variables (F D : Z) (S2 : list Z).

  Definition at_pos (p : Z) : ptrs3 := (p, D + (p - F), adv (p - F) S2).
  Definition ev (k : call) : step :=
    mkstep (k_pos k :: adv (k_pos k - F) S2) (D + (k_pos k - F)) (k_k k) (k_n k) (k_al k).
  Definition map_res {A B} (g : A -> B) (r : res A) : res B :=
    match r with Ok a => Ok (g a) | Stop s => Stop s end.
  Definition mapWT {A B} (g : A -> B) (x : W A) : WT B := (map ev (fst x), map_res g (snd x)).

  Lemma adv_adv a b l : adv a (adv b l) = adv (a + b) l.
  Proof. unfold adv. rewrite map_map. apply map_ext. intros; lia. Qed.

  Lemma advance_at n p : advance n (at_pos p) = at_pos (p + n).
  Proof. unfold advance, at_pos. rewrite adv_adv. f_equal; [f_equal; lia|]. f_equal. lia. Qed.

  Lemma bind_mapWT {A B C} (g : A -> B) (x : W A) (f : A -> W C) (f' : B -> WT C) :
    (forall a, f' (g a) = mapWT id (f a)) ->
    bindT (mapWT g x) f' = mapWT id (bindW x f).
  Proof.
    intros H. destruct x as [l [a|s]]; unfold mapWT, bindT, bindW; cbn [fst snd map_res]; [|reflexivity].
    rewrite H. destruct (f a) as [l' [c|s]]; unfold mapWT; cbn [fst snd map_res id];
      now rewrite map_app.
  Qed.

  Lemma tell_ev p k n al : tellT (step_at (at_pos p) k n al) = mapWT id (tellW (mkcall p k n al)).
  Proof. reflexivity. Qed.

  Lemma main_loop_steps w n al limit fuel : forall p,
    transform_loop fuel (fun f => f <=? limit) w n al (at_pos p)
    = mapWT at_pos (main_loop fuel w n al limit p).
  Proof.
    induction fuel as [|fuel IH]; intros p; [reflexivity|]. cbn [transform_loop main_loop at_pos fst].
    destruct (p <=? limit); [|reflexivity]. rewrite tell_ev, advance_at, IH.
    unfold bindT, bindW, mapWT, tellW. cbn [fst snd map_res id].
    destruct (main_loop fuel w n al limit (p + w * Z.of_nat n)) as [l [x|s]]; reflexivity.
  Qed.

  Lemma match_loop_steps w al last fuel : forall p,
    transform_loop fuel (fun f => negb (f =? last)) w 1 al (at_pos p)
    = mapWT at_pos (match_loop fuel w al last p).
  Proof.
    induction fuel as [|fuel IH]; intros p; [reflexivity|]. cbn [transform_loop match_loop at_pos fst].
    destruct (p =? last); cbn [negb]; [reflexivity|]. rewrite tell_ev, advance_at, IH.
    replace (p + w * Z.of_nat 1) with (p + w) by lia.
    unfold bindT, bindW, mapWT, tellW. cbn [fst snd map_res id].
    destruct (match_loop fuel w al last (p + w)) as [l [x|s]]; reflexivity.
  Qed.

  Lemma const_loop_steps w last fuel : forall p,
    transform_loop fuel (fun f => f + (w - 1) <? last) w 1 false (at_pos p)
    = mapWT at_pos (const_loop fuel w last p).
  Proof.
    induction fuel as [|fuel IH]; intros p; [reflexivity|]. cbn [transform_loop const_loop at_pos fst].
    destruct (p + (w - 1) <? last); [|reflexivity]. rewrite tell_ev, advance_at, IH.
    replace (p + w * Z.of_nat 1) with (p + w) by lia.
    unfold bindT, bindW, mapWT, tellW. cbn [fst snd map_res id].
    destruct (const_loop fuel w last (p + w)) as [l [x|s]]; reflexivity.
  Qed.

  Lemma prologue_steps c maxe tp fuel : forall vs p,
    c_ce c = true -> vs < maxe ->
    transform_prologue fuel vs maxe tp (p :: adv (p - F) S2) (D + (p - F))
    = mapWT id (for_each_prologue fuel c vs maxe p tp).
  Proof.
    induction fuel as [|fuel IH]; intros vs p Hce Hvs; [reflexivity|].
    cbn [transform_prologue for_each_prologue].
    replace (vs <? maxe) with true by lia. rewrite andb_true_r.
    destruct ((1 <? maxe) && has_single_bit maxe && has_single_bit vs); cbn [negb]; [|reflexivity].
    destruct ((tp =? 0) || (maxe <=? tp)); [reflexivity|].
    rewrite Hce. cbn [negb]. rewrite !andb_false_r.
    destruct (maxe =? 2); cbn [orb]; [reflexivity|].
    destruct (Z.land vs tp =? 0); cbn [negb].
    - unfold bindW at 1, retW. destruct (Z.ltb_spec (vs * 2) maxe) as [Hlt|]; [|reflexivity].
      rewrite (IH (vs * 2) p Hce Hlt).
      destruct (for_each_prologue fuel c (vs * 2) maxe p tp) as [l r]. reflexivity.
    - unfold bindW at 1, tellW. unfold bindT at 1, tellT.
      destruct (Z.ltb_spec (vs * 2) maxe) as [Hlt|]; [|reflexivity].
      replace (adv vs (p :: adv (p - F) S2)) with ((p + vs) :: adv (p + vs - F) S2).
      2:{ unfold adv. cbn [map]. f_equal. rewrite map_map. apply map_ext. intros; lia. }
      replace (D + (p - F) + vs) with (D + (p + vs - F)) by lia.
      rewrite (IH (vs * 2) (p + vs) Hce Hlt).
      destruct (for_each_prologue fuel c (vs * 2) maxe (p + vs) tp) as [l r]. reflexivity.
  Qed.

  Lemma epilogue_steps c last al fuel : forall vs0 lo,
    c_ce c = true -> 0 < lo < vs0 ->
    transform_epilogue fuel vs0 lo last (D + (last - lo - F)) (adv (last - lo - F) S2) al
    = mapWT id (for_each_epilogue fuel c vs0 lo last al).
  Proof.
    induction fuel as [|fuel IH]; intros vs0 lo Hce Hlo; [reflexivity|].
    cbn [transform_epilogue for_each_epilogue]. rewrite Hce. cbn [negb]. rewrite !andb_false_r.
    destruct (Z.ltb_spec 1 vs0); cbn [negb]; [|reflexivity].
    destruct (Z.eqb_spec vs0 2) as [->|Hne].
    { assert (lo = 1) by lia. subst lo. reflexivity. }
    destruct (bit_ceil_half vs0 ltac:(lia)) as (e & He & Ebc & Elo & Ehi). replace (2 ^ (e + 1)) with (2 * 2 ^ e) in Ehi by (rewrite Z.pow_add_r; lia).
    set (vs := bit_ceil vs0 / 2) in *.
    assert (Hvs : vs = 2 ^ e) by (unfold vs; exact Ebc).
    assert (Hpos := pow2_pos e ltac:(lia)).
    assert (Hl := land_pow2 lo e ltac:(lia)).
    rewrite (testbit_small lo e) in Hl by (rewrite ?Z.pow_add_r; lia).
    rewrite <- Hvs in Hl, Hpos, Elo, Ehi.
    destruct (Z.eqb_spec (Z.land lo vs) 0) as [E0|N0]; cbn [negb].
    - destruct (Z.leb_spec vs lo); [lia|]. unfold bindT at 1, retT, bindW at 1, retW.
      destruct ((1 <? vs) && negb (lo =? 0)) eqn:Eif; [|reflexivity].
      rewrite (IH vs lo Hce); [|lia].
      destruct (for_each_epilogue fuel c vs lo last al) as [l r]. reflexivity.
    - destruct (Z.leb_spec vs lo); [|lia]. unfold bindT at 1, tellT, bindW at 1, tellW.
      replace (D + (last - lo - F) + vs) with (D + (last - (lo - vs) - F)) by lia.
      replace (adv vs (adv (last - lo - F) S2)) with (adv (last - (lo - vs) - F) S2)
        by (rewrite adv_adv; f_equal; lia).
      destruct ((1 <? vs) && negb (lo - vs =? 0)) eqn:Eif; [|reflexivity].
      rewrite (IH vs (lo - vs) Hce); [|lia].
      destruct (for_each_epilogue fuel c vs (lo - vs) last al) as [l r]. reflexivity.
  Qed.
End Steps.

Lemma transform_body_steps F D S2 c c' pol w first last distance :
  c_ce c' = true -> use_aligned_loadstore c' pol w = use_aligned_loadstore c pol w ->
  1 <= w < two64 -> first <= last ->
  distance mod w = (last - first) mod w ->
  (p_match pol = true -> (w | last - first)) ->
  exists l, for_each_body c' pol w first last distance = (l, Ok tt)
    /\ transform_body c pol w last distance (at_pos F D S2 first)
       = (map (ev F D S2) l, Ok (D + (last - F))).
Proof.
  intros Hce Hal Hw Hle Hd Hmatch. unfold for_each_body, transform_body. rewrite Hd, Hal.
  set (al := use_aligned_loadstore c pol w). cbn [at_pos fst].
  destruct (body_loops pol w al first last Hw Hle Hmatch)
    as (l1 & a & l2 & b & E1 & Hu1 & Hl1 & Ha & Hda & E2 & Hu2 & Hdb & Eb).
  assert (E1' : (if 1 <? p_unroll pol
     then transform_loop (loop_fuel first last) (fun f => f <=? last - w * p_unroll pol) w
            (Z.to_nat (p_unroll pol)) al (at_pos F D S2 first)
     else retT (at_pos F D S2 first)) = (map (ev F D S2) l1, Ok (at_pos F D S2 a))).
  { destruct (1 <? p_unroll pol).
    - rewrite main_loop_steps, E1. reflexivity.
    - unfold retW in E1. injection E1 as <- <-. reflexivity. }
  assert (E2' : (if p_match pol
     then transform_loop (loop_fuel first last) (fun f => negb (f =? last)) w 1 al (at_pos F D S2 a)
     else transform_loop (loop_fuel first last) (fun f => f <=? last - w) w 1 al (at_pos F D S2 a))
     = (map (ev F D S2) l2, Ok (at_pos F D S2 b))).
  { destruct (p_match pol); [rewrite match_loop_steps|rewrite main_loop_steps]; rewrite E2; reflexivity. }
  change (first, D + (first - F), adv (first - F) S2) with (at_pos F D S2 first) in *.
  rewrite E1, E1'. unfold bindT, bindW. cbn beta iota. rewrite E2, E2'.
  cbn [at_pos].
  assert (Hmb : 0 <= (last - first) mod w < w) by (apply Z.mod_pos_bound; lia).
  destruct (p_match pol) eqn:Em; cbn [negb andb].
  { rewrite andb_false_r. exists (l1 ++ l2 ++ []). split; [reflexivity|].
    rewrite !app_nil_r, map_app. unfold retT. cbn beta iota. rewrite app_nil_r. do 2 f_equal.
    assert ((last - first) mod w = 0) by (apply Z.mod_divide; [lia|]; now apply Hmatch). lia. }
  rewrite andb_true_r. destruct (Z.ltb_spec 1 w) as [Hw1|Hw1]; cbn [andb].
  2:{ exists (l1 ++ l2 ++ []). split; [reflexivity|]. unfold retT. rewrite !app_nil_r, map_app.
      do 2 f_equal. replace w with 1 in Hmb by lia. replace w with 1 in Eb by lia. lia. }
  destruct (Z.eqb_spec ((last - first) mod w) 0) as [E0|N0]; cbn [negb].
  - exists (l1 ++ l2 ++ []). split; [reflexivity|]. unfold retT. rewrite !app_nil_r, map_app.
    do 2 f_equal. lia.
  - destruct (for_each_epilogue_ok c' al 64 w (exponent w) ((last - first) mod w) last)
      as (l3 & E3 & Hd3).
    + unfold exponent. split; [lia|]. apply Z.log2_up_spec. lia.
    + unfold exponent. split; [apply Z.log2_up_nonneg|].
      apply Z.log2_up_le_pow2; [lia|]. unfold two64 in Hw. change (Z.of_nat 64) with 64. lia.
    + lia.
    + rewrite E3. exists (l1 ++ l2 ++ l3). split; [reflexivity|].
      rewrite Eb, (epilogue_steps F D S2 c' last al 64 w) by (try assumption; lia).
      rewrite E3. unfold mapWT. cbn [fst snd map_res id]. unfold retT. rewrite app_nil_r, !map_app.
      do 2 f_equal. lia.
Qed.

(** The configuration seen by for_each's control flow when it is the output that is aligned. *)
Definition shift_cfg (F D : Z) (c : cfg) : cfg :=
  mkcfg (c_sz c) (c_base c + (D - F) * c_sz c) (c_malign c) (c_osize c) true.

Lemma shift_prologue_args F D c pol w rem :
  prologue_args (shift_cfg F D c) pol w rem F = prologue_args c pol w rem D.
Proof.
  unfold prologue_args, use_aligned_loadstore, maybe_prologue, prologue_is_possible, shift_cfg.
  cbn [c_sz c_base c_malign].
  replace (c_base c + (D - F) * c_sz c + F * c_sz c) with (c_base c + D * c_sz c) by lia. reflexivity.
Qed.

Lemma shift_aligned F D c p k : aligned_at (shift_cfg F D c) p k = aligned_at c (D + (p - F)) k.
Proof.
  unfold aligned_at, shift_cfg. cbn [c_sz c_base c_malign].
  do 2 f_equal. lia.
Qed.

Lemma shift_cfg_ok F D c : cfg_ok c -> cfg_ok (shift_cfg F D c).
Proof.
  intros [(H1 & H2 & H3)|(H1 & H2)]; [left|right]; unfold cfg_std, cfg_fallback, shift_cfg; cbn.
  - repeat split; try assumption. rewrite Z.mod_add by lia. assumption.
  - split; assumption.
Qed.

Lemma at_pos_start F D S2 : at_pos F D S2 F = (F, D, S2).
Proof.
  unfold at_pos, adv. rewrite Z.sub_diag, Z.add_0_r.
  f_equal. rewrite <- (map_id S2) at 2. apply map_ext. intros; lia.
Qed.

Lemma transform_rt_steps c pol w first last dst S2 :
  cfg_ok c -> pol_ok pol -> 1 <= w < two64 -> first <= last -> last - first < two64 ->
  (p_match pol = true -> (w | last - first)) ->
  prologue_fits (shift_cfg first dst c) pol w first last -> small_vectors c pol w ->
  exists l, transform_rt c pol w first last dst S2
            = (map (ev first dst S2) l, Ok (dst + (last - first)))
    /\ tiles first last l /\ Forall (call_aligned (shift_cfg first dst c)) l
    /\ call_shape pol w l.
Proof.
  intros Hc Hpol Hw Hle H64 Hmatch Hfits Hsmall. set (c' := shift_cfg first dst c).
  destruct (for_each_rt_calls c' pol w first last) as (l & E & HT & HA & _ & HS);
    try assumption; [now apply shift_cfg_ok|].
  exists l. split; [|auto]. unfold transform_rt. rewrite <- shift_prologue_args with (F := first).
  fold c'. unfold for_each_rt in E.
  destruct (prologue_args c' pol w (last - first) first) as [[maxe tp]|] eqn:Epa.
  - assert (Hpos : prologue_is_possible c' w = true).
    { unfold prologue_args, use_aligned_loadstore, maybe_prologue in Epa.
      destruct (prologue_is_possible c' w); [reflexivity|].
      rewrite !andb_false_r in Epa. discriminate. }
    assert (Hc' : cfg_ok c') by now apply shift_cfg_ok.
    destruct Hc' as [Hstd|Hfb];
      [|rewrite fallback_impossible in Hpos by assumption; discriminate].
    destruct (prologue_args_std _ _ _ _ _ _ _ Hstd (proj2 Hw) Epa) as (_ & -> & Htp & Hal & Hleast).
    assert (Htple : tp <= last - first).
    { destruct (p_aligned pol) eqn:Epal.
      - destruct (Hfits Epal Hpos) as (a & Ha & Haa). specialize (Hleast a ltac:(lia) Haa). lia.
      - apply (prologue_args_auto_fits c' pol w (last - first) first w tp); try assumption; try lia.
        apply Hsmall. unfold prologue_args, use_aligned_loadstore, maybe_prologue in Epa.
        rewrite Epal in Epa. cbn [andb orb] in Epa. destruct (p_auto pol); [reflexivity|].
        cbn [andb] in Epa. discriminate. }
    rewrite <- (at_pos_start first dst S2).
    replace (first :: S2) with (first :: adv (first - first) S2).
    2:{ f_equal. assert (H := at_pos_start first dst S2). unfold at_pos in H. congruence. }
    replace (transform_prologue 64 1 w tp (first :: adv (first - first) S2) dst)
      with (transform_prologue 64 1 w tp (first :: adv (first - first) S2) (dst + (first - first)))
      by (f_equal; lia).
    rewrite (prologue_steps first dst S2 c' w tp 64 1 first eq_refl) by lia.
    destruct (transform_body_steps first dst S2 c c' pol w (first + tp) last
                ((last - first - tp) mod two64)) as (l' & E' & Et);
      [reflexivity|reflexivity|assumption|lia| | |].
    { rewrite (Z.mod_small (last - first - tp) two64) by lia. f_equal. lia. }
    { intros Em. exfalso. destruct Hpol as (Hp1 & Hp2 & _).
      unfold prologue_args, use_aligned_loadstore, maybe_prologue in Epa.
      destruct (p_aligned pol); [rewrite Hp1 in Em by reflexivity; discriminate|].
      destruct (p_auto pol); [rewrite Hp2 in Em by reflexivity; discriminate|].
      cbn in Epa. discriminate. }
    rewrite advance_at. rewrite Et. rewrite E' in E.
    destruct (for_each_prologue 64 c' 1 w first tp) as [lp [[]|s]]; unfold bindW in E; cbn beta iota in E.
    + injection E as <-. unfold mapWT, bindT. cbn [fst snd map_res]. now rewrite map_app.
    + discriminate.
  - rewrite <- (at_pos_start first dst S2).
    destruct (transform_body_steps first dst S2 c c' pol w first last (last - first)) as (l' & E' & Et);
      try assumption; try reflexivity.
    rewrite Et. rewrite E' in E. injection E as <-. reflexivity.
Qed.

(** Constant evaluation: all chunks of width w, then single elements. *)
Lemma transform_ce_steps w first last dst S2 :
  1 <= w < two64 -> first <= last ->
  exists l, transform_ce w first last dst S2 = (map (ev first dst S2) l, Ok (dst + (last - first)))
    /\ tiles first last l /\ Forall (fun k => k_al k = false) l
    /\ Forall (fun k => (k_k k = w \/ k_k k = 1) /\ k_n k = 1%nat) l.
Proof.
  intros Hw Hle. unfold transform_ce. rewrite <- (at_pos_start first dst S2).
  rewrite const_loop_steps.
  destruct (const_loop_ok w (loop_fuel first last) last first) as [E Hu];
    [lia|lia|unfold loop_fuel; lia|].
  set (l1 := fst (const_loop (loop_fuel first last) w last first)) in *.
  set (b := last - (last - first) mod w) in *.
  assert (Hmb : 0 <= (last - first) mod w < w) by (apply Z.mod_pos_bound; lia).
  assert (HT1 : tiles first b l1) by (eapply uniform_tiles; [| |exact Hu]; lia).
  pose proof (tiles_le _ _ _ HT1) as Hb.
  rewrite E. unfold mapWT, bindT at 1. cbn [fst snd map_res].
  assert (E2 := const_loop_steps first dst S2 1 last (loop_fuel first last) b).
  destruct (const_loop_ok 1 (loop_fuel first last) last b) as [E1 Hu1];
    [lia|lia|unfold loop_fuel; lia|].
  set (l2 := fst (const_loop (loop_fuel first last) 1 last b)) in *.
  rewrite Z.mod_1_r, Z.sub_0_r in *.
  assert (Hext : forall fuel p,
    transform_loop fuel (fun f => f <? last) 1 1 false p
    = transform_loop fuel (fun f => f + (1 - 1) <? last) 1 1 false p).
  { induction fuel as [|fuel IH]; intros p; [reflexivity|]. cbn [transform_loop].
    rewrite Z.add_0_r. destruct (fst (fst p) <? last); [|reflexivity]. now rewrite IH. }
  rewrite Hext, E2, E1. unfold mapWT, bindT, retT. cbn [fst snd map_res at_pos].
  rewrite app_nil_r, <- map_app. exists (l1 ++ l2). split; [reflexivity|].
  split; [eapply tiles_app; [exact HT1|]; eapply uniform_tiles; [| |exact Hu1]; lia|].
  pose proof (uniform_pos _ _ _ _ _ _ Hu first ltac:(rewrite Z.sub_diag; apply Z.divide_0_r)) as P1.
  pose proof (uniform_pos _ _ _ _ _ _ Hu1 b ltac:(rewrite Z.sub_diag; apply Z.divide_0_r)) as P2.
  rewrite !Forall_app. repeat split.
  - eapply Forall_impl; [|exact P1]. now intros k (_ & _ & H & _).
  - eapply Forall_impl; [|exact P2]. now intros k (_ & _ & H & _).
  - eapply Forall_impl; [|exact P1]. intros k (H1 & H2 & _). auto.
  - eapply Forall_impl; [|exact P2]. intros k (H1 & H2 & _). auto.
Qed.

(** ** Execution *)
Section Run.
  Context {T : Type} (op : list T -> T) (opv : list (list T) -> list T).

  Lemma load_all m srcs k :
    Forall (fun p => forall j, 0 <= j < Z.of_nat k -> m (p + j) <> None) srcs ->
    exists chunks, mapR (fun p => of_option (@load T m p k)) srcs = Ok chunks
      /\ Forall2 (fun p ch => load m p k = Some ch) srcs chunks.
  Proof.
    induction 1 as [|p srcs Hp HF IH]; [exists []; split; constructor|].
    destruct (load_ok m p k) as [ch Hch].
    { intros a Ha. replace a with (p + (a - p)) by lia. apply Hp. lia. }
    destruct IH as (chunks & E & H2). exists (ch :: chunks). cbn [mapR].
    rewrite Hch. cbn [of_option bindR]. rewrite E. split; [reflexivity|now constructor].
  Qed.

  Lemma invoke_at_ok m srcs k : lanewise_op op opv -> srcs <> [] ->
    Forall (fun p => forall j, 0 <= j < Z.of_nat k -> m (p + j) <> None) srcs ->
    exists r, bindR (mapR (fun p => of_option (load m p k)) srcs) (fun chunks => Ok (opv chunks)) = Ok r
      /\ length r = k
      /\ forall j args, (j < k)%nat -> Forall2 (fun p x => m (p + Z.of_nat j) = Some x) srcs args ->
                        nth_error r j = Some (op args).
  Proof.
    intros Hop Hne Hdef. destruct (load_all m srcs k Hdef) as (chunks & E & H2).
    rewrite E. cbn [bindR]. exists (opv chunks). split; [reflexivity|].
    assert (Hlen : Forall (fun ch => length ch = k) chunks).
    { clear - H2. induction H2; constructor; [|assumption]. now apply load_length in H. }
    destruct (Hop k chunks) as [Hl Hn]; [intros ->; inversion H2; subst; contradiction|assumption|].
    split; [assumption|]. intros j args Hj Hargs. apply Hn.
    clear - H2 Hj Hargs. revert args Hargs. induction H2 as [|p ch srcs chunks Hp H2 IH]; intros args Hargs;
      inversion Hargs; subst; constructor; [|now apply IH].
    match goal with H : m (p + _) = Some _ |- _ => rewrite <- H end.
    symmetry. rewrite (load_nth _ _ _ _ Hp) by lia. f_equal. lia.
  Qed.

  Lemma invoke_all_ok m k n : lanewise_op op opv -> 0 < k -> forall srcs, srcs <> [] ->
    Forall (fun p => forall j, 0 <= j < k * Z.of_nat n -> m (p + j) <> None) srcs ->
    exists rs, invoke_all opv m srcs k n = Ok rs
      /\ map (@length T) rs = repeat (Z.to_nat k) n
      /\ forall j args, 0 <= j < k * Z.of_nat n ->
           Forall2 (fun p x => m (p + j) = Some x) srcs args ->
           nth_error (concat rs) (Z.to_nat j) = Some (op args).
  Proof.
    intros Hop Hk. induction n as [|n IH]; intros srcs Hne Hdef.
    - exists []. repeat split. intros; lia.
    - cbn [invoke_all]. unfold invoke_at.
      destruct (invoke_at_ok m srcs (Z.to_nat k) Hop Hne) as (r & Er & Hlr & Hnr).
      { eapply Forall_impl; [|exact Hdef]. cbn. intros p Hp j Hj. apply Hp. nia. }
      rewrite Er. cbn [bindR].
      destruct (IH (adv k srcs)) as (rs & Ers & Hsh & Hnth).
      { destruct srcs; [contradiction|discriminate]. }
      { unfold adv. apply Forall_map. eapply Forall_impl; [|exact Hdef]. cbn.
        intros p Hp j Hj. replace (p + k + j) with (p + (k + j)) by lia. apply Hp. nia. }
      rewrite Ers. cbn [bindR]. exists (r :: rs). split; [reflexivity|]. split; [cbn; now rewrite Hlr, Hsh|].
      intros j args Hj Hargs. cbn [concat]. destruct (Z_lt_le_dec j k) as [Hjk|Hjk].
      + rewrite nth_error_app1 by lia. apply Hnr; [lia|]. rewrite Z2Nat.id by lia. exact Hargs.
      + rewrite nth_error_app2 by lia. rewrite Hlr.
        replace (Z.to_nat j - Z.to_nat k)%nat with (Z.to_nat (j - k)) by lia.
        apply Hnth; [nia|]. clear - Hargs. unfold adv. induction Hargs; constructor; [|assumption].
        now replace (x + k + (j - k)) with (x + j) by lia.
  Qed.

  Lemma run_steps_ok c F D S2 : lanewise_op op opv -> forall a b l, tiles a b l ->
    Forall (call_aligned (shift_cfg F D c)) l -> F <= a ->
    forall m, (forall i, a <= i < b -> m (D + (i - F)) <> None) ->
    (forall i, a <= i < b -> m i <> None) ->
    Forall (fun p => forall i, a <= i < b -> m (p + (i - F)) <> None) S2 ->
    Forall (fun p => D <= p \/ p + (b - F) <= D) (F :: S2) ->
    exists m', run_steps opv c m (map (ev F D S2) l) = Ok m'
      /\ (forall i args, a <= i < b -> Forall2 (fun p x => m (p + (i - F)) = Some x) (F :: S2) args ->
                         m' (D + (i - F)) = Some (op args))
      /\ (forall x, ~ (D + (a - F) <= x < D + (b - F)) -> m' x = m x)
      /\ (forall x, m' x = None <-> m x = None).
  Proof.
    intros Hop a b l H. induction H as [a|a b k n al l Hk Hn Ht IH]; intros HA HF m Hd Hs1 Hs2 Hnc.
    - exists m. cbn. repeat split; try tauto. intros; lia.
    - inversion HA as [|? ? HA1 HA2]; subst. pose proof (tiles_le _ _ _ Ht) as Hle.
      set (a' := a + k * Z.of_nat n) in *.
      assert (Haa : a < a') by (unfold a'; nia).
      cbn [map run_steps]. unfold run_step.
      cbn [ev t_srcs t_k t_n t_al t_dst k_pos k_k k_n k_al].
      destruct (invoke_all_ok m k n Hop Hk (a :: adv (a - F) S2)) as (rs & Er & Hsh & Hnth);
        [discriminate| |].
      { constructor.
        - intros j Hj. apply Hs1. unfold a' in *. lia.
        - unfold adv. apply Forall_map. eapply Forall_impl; [|exact Hs2]. cbn. intros p Hp j Hj.
          replace (p + (a - F) + j) with (p + (a + j - F)) by lia. apply Hp. unfold a' in *; lia. }
      rewrite Er. cbn [bindR].
      destruct (store_chunks_ok (fun (s : unit) (x : list (list T)) => (s, x)) c al k rs m n (D + (a - F)) Hk Hsh) as (m1 & Em & Hld & Ho & Hdn).
      { intros Eal i Hi. specialize (HA1 Eal i Hi). cbn [k_pos k_k] in HA1. rewrite shift_aligned in HA1.
        replace (D + (a - F) + k * i) with (D + (a + k * i - F)) by lia. exact HA1. }
      { intros x Hx. replace x with (D + (x - D + F - F)) by lia. apply Hd. unfold a' in *; lia. }
      rewrite Em. cbn [bindR].
      assert (Hkeep : forall p i, (D <= p \/ p + (b - F) <= D) -> a' <= i < b ->
                m1 (p + (i - F)) = m (p + (i - F))).
      { intros p i Hp Hi. apply Ho. fold a'. unfold a' in *. lia. }
      destruct (IH HA2 ltac:(lia) m1) as (m2 & Er2 & Hs & Ho2 & Hdn2).
      { intros i Hi. rewrite Hdn. apply Hd. lia. }
      { intros i Hi. rewrite Hdn. apply Hs1. lia. }
      { eapply Forall_impl; [|exact Hs2]. cbn. intros p Hp i Hi. rewrite Hdn. apply Hp. lia. }
      { exact Hnc. }
      exists m2. split; [exact Er2|]. split; [|split].
      + intros i args Hi Hargs. destruct (Z_lt_le_dec i a') as [Hia|Hia].
        * rewrite Ho2 by lia.
          assert (Hr := Hnth (i - a) args ltac:(unfold a' in *; lia)).
          assert (Hx : nth_error (concat rs) (Z.to_nat (i - a)) = Some (op args)).
          { apply Hr. inversion Hargs as [|? ? ? args' H1 H2]; subst. constructor.
            - replace (a + (i - a)) with (F + (i - F)) by lia. exact H1.
            - clear - H2. unfold adv. induction H2; constructor; [|assumption].
              now replace (x + (a - F) + (i - a)) with (x + (i - F)) by lia. }
          rewrite <- Hx.
          rewrite (load_nth _ _ _ _ Hld) by (unfold a' in *; nia). f_equal. lia.
        * apply Hs; [lia|]. clear - Hargs Hnc Hkeep Hi Hia.
          revert Hargs Hnc. generalize (F :: S2) as srcs. intros srcs Hargs.
          induction Hargs; intros Hnc; inversion Hnc; subst; constructor; [|auto].
          rewrite Hkeep by (try assumption; lia). assumption.
      + intros x Hx. rewrite Ho2 by lia. apply Ho. fold a'. unfold a' in *. lia.
      + intros x. rewrite Hdn2. apply Hdn.
  Qed.
End Run.
