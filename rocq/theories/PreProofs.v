(** Lemmas behind C67: precondition checks. *)
From Coq Require Import String Ascii DecimalString Decimal.
From Verif Require Import Base PreModel PreSpec ExecModel ExecSpec ExecThm
  TransformModel TransformThm TReduceModel TReduceThm.
#[local] Open Scope string_scope.
#[local] Open Scope Z_scope.

(** ** fprintf *)

Lemma string_app_assoc a b c : (a ++ b) ++ c = a ++ b ++ c.
Proof. induction a as [|x a IH]; [reflexivity|]. cbn [append]. rewrite IH. reflexivity. Qed.

Lemma string_app_nil a : a ++ "" = a.
Proof. induction a as [|x a IH]; [reflexivity|]. cbn [append]. rewrite IH. reflexivity. Qed.

Lemma pcat_pcat a b p : pcat a (pcat b p) = pcat (a ++ b) p.
Proof. destruct p; cbn [pcat]; rewrite ?string_app_assoc; reflexivity. Qed.

Lemma fmt_plain s : percent_free s -> forall r args,
  fmt_go FText (s ++ r) args = pcat s (fmt_go FText r args).
Proof.
  induction s as [|c s IH]; cbn [percent_free append]; intros H r args.
  - destruct (fmt_go FText r args); reflexivity.
  - destruct H as [Hc H]. cbn [fmt_go]. rewrite (proj2 (Ascii.eqb_neq c "%"%char) Hc).
    rewrite (IH H), pcat_pcat. reflexivity.
Qed.

Lemma percent_free_app a b : percent_free (a ++ b) <-> percent_free a /\ percent_free b.
Proof.
  induction a as [|c a IH]; cbn [append percent_free]; [tauto|].
  rewrite IH. tauto.
Qed.

Lemma uint_percent_free d : percent_free (NilEmpty.string_of_uint d).
Proof. induction d; cbn; [exact I|..]; (split; [discriminate|assumption]). Qed.

Lemma dec_percent_free z : percent_free (dec z).
Proof.
  unfold dec, NilZero.string_of_int.
  assert (H : forall d, percent_free (NilZero.string_of_uint d)).
  { intros d. unfold NilZero.string_of_uint.
    destruct d; [cbn; split; [discriminate|exact I]|..]; apply uint_percent_free. }
  destruct (Z.to_int z); [apply H|]. cbn [percent_free]. split; [discriminate|apply H].
Qed.

Definition loc (file : string) (line : Z) : string := file ++ ":" ++ dec line ++ ": ".

Lemma loc_percent_free file line : percent_free file -> percent_free (loc file line).
Proof.
  intros H. unfold loc. apply percent_free_app. split; [exact H|].
  apply percent_free_app. split; [cbn; split; [discriminate|exact I]|].
  apply percent_free_app. split; [apply dec_percent_free|].
  cbn. repeat split; discriminate.
Qed.

Lemma fmt_s r s args : fmt_go FText ("%s" ++ r) (PStr s :: args) = pcat s (fmt_go FText r args).
Proof. reflexivity. Qed.

Lemma fmt_zu r n args : fmt_go FText ("%zu" ++ r) (PSize n :: args) = pcat (dec n) (fmt_go FText r args).
Proof. reflexivity. Qed.

Lemma fmt_d r z args : fmt_go FText ("%d" ++ r) (PInt z :: args) = pcat (dec z) (fmt_go FText r args).
Proof. reflexivity. Qed.

(** The part in front of the message *)
Lemma fmt_head k : percent_free (k_file k) ->
  printf (check_format k) (check_args k)
  = pcat (loc (k_file k) (k_line k) ++ "precondition failure in '" ++ k_func k ++ "': ")
      (fmt_go FText (k_msg k ++ " ('" ++ k_expr k ++ "' does not hold)" ++ newline) (k_args k)).
Proof.
  intros H. unfold printf, check_format, check_args, simd_loc.
  change (k_file k ++ ":" ++ dec (k_line k) ++ ": ") with (loc (k_file k) (k_line k)).
  rewrite (fmt_plain _ (loc_percent_free _ _ H)).
  set (r := k_msg k ++ _).
  change ("precondition failure in '%s': " ++ r) with ("precondition failure in '" ++ "%s" ++ "': " ++ r).
  rewrite fmt_plain by (cbn; repeat split; discriminate).
  rewrite fmt_s.
  rewrite (fmt_plain "': ") by (cbn; repeat split; discriminate).
  rewrite !pcat_pcat. rewrite !string_app_assoc. reflexivity.
Qed.

(** The part behind the message *)
Lemma fmt_tail expr args : percent_free expr ->
  fmt_go FText (" ('" ++ expr ++ "' does not hold)" ++ newline) args
  = PText (" ('" ++ expr ++ "' does not hold)" ++ newline).
Proof.
  intros H. rewrite (fmt_plain " ('") by (cbn; repeat split; discriminate).
  rewrite (fmt_plain expr H).
  reflexivity.
Qed.

(** A message whose own conversions produce [e] *)
Lemma message_general k e :
  percent_free (k_file k) -> percent_free (k_expr k) ->
  (forall r, fmt_go FText (k_msg k ++ r) (k_args k) = pcat e (fmt_go FText r [])) ->
  printf (check_format k) (check_args k)
  = PText (error_text (k_file k) (k_line k) (k_func k) e (k_expr k)).
Proof.
  intros Hf He Hm. rewrite (fmt_head k Hf), Hm, (fmt_tail _ _ He), pcat_pcat.
  cbn [pcat]. unfold error_text, loc, newline, decimal. fold (dec (k_line k)).
  rewrite !string_app_assoc. reflexivity.
Qed.

Lemma plain_message k :
  percent_free (k_file k) -> percent_free (k_expr k) -> percent_free (k_msg k) -> k_args k = [] ->
  printf (check_format k) (check_args k)
  = PText (error_text (k_file k) (k_line k) (k_func k) (k_msg k) (k_expr k)).
Proof.
  intros Hf He Hm Ha. apply message_general; [assumption..|]. rewrite Ha. intros r.
  apply fmt_plain. exact Hm.
Qed.

Lemma empty_message file line func scalar first :
  percent_free file ->
  let k := empty_check file line func scalar first in
  printf (check_format k) (check_args k)
  = PText (error_text file line func (k_msg k) (k_expr k)).
Proof.
  intros Hf. apply plain_message; [exact Hf| | |reflexivity];
    destruct scalar, first; cbn; repeat split; discriminate.
Qed.

Lemma subscript_message file line func n i :
  percent_free file ->
  let k := subscript_check file line func n i in
  printf (check_format k) (check_args k)
  = PText (error_text file line func (subscript_text n i) "i < size()").
Proof.
  intros Hf. apply (message_general (subscript_check file line func n i)); [exact Hf| |].
  - cbn; repeat split; discriminate.
  - intros r. cbn [subscript_check k_msg k_args].
    change ("Subscript %zu is out of range [0, %zu]" ++ r)
      with ("Subscript " ++ "%zu" ++ " is out of range [0, " ++ "%zu" ++ "]" ++ r).
    rewrite fmt_plain by (cbn; repeat split; discriminate). rewrite fmt_zu.
    rewrite (fmt_plain " is out of range [0, ") by (cbn; repeat split; discriminate). rewrite fmt_zu.
    rewrite (fmt_plain "]") by (cbn; repeat split; discriminate).
    rewrite !pcat_pcat. unfold subscript_text, decimal. fold (dec i) (dec (n - 1)).
    rewrite !string_app_assoc. reflexivity.
Qed.

(** The text of assume_matching_size up to its explanation is right; the expression contains a
    conversion without argument. *)
Lemma matching_explanation d w r :
  fmt_go FText (k_msg (matching_check "" 0 "" d w) ++ r) [PSize d; PInt w]
  = pcat (matching_text d w) (fmt_go FText r []).
Proof.
  cbn [matching_check k_msg]. rewrite string_app_assoc.
  change ("The explicit assumption, that the range size (%zu) is a multiple" ++ ?r)
    with ("The explicit assumption, that the range size (" ++ "%zu" ++ ") is a multiple" ++ r).
  change (" of the SIMD width (%d), does not hold." ++ r)
    with (" of the SIMD width (" ++ "%d" ++ "), does not hold." ++ r).
  rewrite fmt_plain by (cbn; repeat split; discriminate). rewrite fmt_zu.
  rewrite (fmt_plain ") is a multiple") by (cbn; repeat split; discriminate).
  rewrite (fmt_plain " of the SIMD width (") by (cbn; repeat split; discriminate). rewrite fmt_d.
  rewrite (fmt_plain "), does not hold.") by (cbn; repeat split; discriminate).
  rewrite !pcat_pcat. unfold matching_text, decimal. fold (dec d) (dec w).
  f_equal. rewrite !string_app_assoc. reflexivity.
Qed.

Lemma matching_undefined file line func d w :
  percent_free file ->
  let k := matching_check file line func d w in
  printf (check_format k) (check_args k) = PUndefined.
Proof.
  intros Hf. cbv zeta. rewrite fmt_head by exact Hf.
  cbn [matching_check k_args k_expr k_msg].
  pose proof (matching_explanation d w) as E. cbn [matching_check k_msg] in E. rewrite E.
  reflexivity.
Qed.

(** ** The table *)

Lemma level_cases (l : Z) (P : Z -> Prop) :
  P 0 -> P 1 -> P 2 -> P 3 -> P 4 -> P 5 -> 0 <= l <= 5 -> P l.
Proof.
  intros H0 H1 H2 H3 H4 H5 H.
  assert (l = 0 \/ l = 1 \/ l = 2 \/ l = 3 \/ l = 4 \/ l = 5) as C by lia.
  destruct C as [-> | [-> | [-> | [-> | [-> | ->]]]]]; assumption.
Qed.

Lemma satisfied_silent b known k :
  header_ok b = true ->
  run_check b known true k = Runs false EContinue /\ consteval_check b true = Runs false EContinue.
Proof.
  intros H. unfold run_check, consteval_check. rewrite H. cbn [negb andb].
  destruct (level_late b <? 0), (diagnosing b), known; split; reflexivity.
Qed.

(** A failure the compiler does not see *)
Lemma unknown_failure b k :
  header_ok b = true -> 0 <= level_late b ->
  run_check b false false k = Runs false (invoke_ub b (check_format k) (check_args k)).
Proof.
  intros H L. unfold run_check. rewrite H. cbn [negb andb].
  rewrite (proj2 (Z.ltb_ge _ _) L). destruct (diagnosing b); reflexivity.
Qed.

Lemma late_documented b : level_late b = documented_level (b_level b).
Proof. reflexivity. Qed.

Lemma action_iff b k text :
  level_valid (b_level b) -> header_ok b = true ->
  printf (check_format k) (check_args k) = PText text ->
  (exists a e, documented_action (documented_level (b_level b)) = Some a
     /\ run_check b false false k = Runs false e /\ acts e a text)
  <-> exists l, b_level b = Some l /\ (l < 2 \/ 4 <= l \/ exists v, b_gnuc b = Some v).
Proof.
  intros Hv Hh Hp. unfold level_valid in Hv.
  pose proof (unknown_failure b k Hh ltac:(rewrite late_documented; lia)) as E.
  unfold invoke_ub in E. rewrite Hp in E. unfold level_early in E.
  destruct b as [lv g cl io]; cbn [b_level b_gnuc] in *.
  destruct lv as [l|]; cbn [documented_level pp_value] in *.
  - revert Hv. split.
    + intros (a & e & Ha & Hr & Hc). rewrite E in Hr. exists l. split; [reflexivity|].
      destruct (Z.ltb_spec l 2) as [|H2]; [left; assumption|].
      destruct (Z.ltb_spec l 4) as [H4|]; [|right; left; assumption].
      right; right. destruct g as [v|]; [exists v; reflexivity|]. exfalso.
      cbn [pp_defined andb] in Hr. injection Hr as <-.
      assert (l = 2 \/ l = 3) as [-> | ->] by lia; injection Ha as <-; discriminate Hc.
    + intros (l' & Hl & Hc). injection Hl as <-.
      revert Hc E. apply (level_cases l); try exact Hv; intros Hc E; cbn in E;
        eexists; eexists; (split; [reflexivity|]); (split; [exact E|]); cbn [acts].
      * exact I.
      * exact I.
      * destruct Hc as [Hc | [Hc | [v ->]]]; [lia..|]. reflexivity.
      * destruct Hc as [Hc | [Hc | [v ->]]]; [lia..|]. reflexivity.
      * rewrite andb_false_r. reflexivity.
      * rewrite andb_false_r. reflexivity.
  - split.
    + intros (a & e & Ha & Hr & Hc). rewrite E in Hr. cbn in Hr. injection Hr as <-.
      injection Ha as <-. discriminate Hc.
    + intros (l & Hl & _). discriminate Hl.
Qed.

(** Without the macro a failure is undefined behaviour at run time. *)
Lemma default_undefined b k :
  b_level b = None -> run_check b false false k = Runs false EUndefined.
Proof.
  intros H. unfold run_check, header_ok, invoke_ub, level_early, level_late. rewrite H. cbn.
  destruct (diagnosing b); reflexivity.
Qed.

(** The compile-time column *)
Lemma diagnosis_iff b k :
  level_valid (b_level b) -> header_ok b = true ->
  (exists d, documented_diagnosis (documented_level (b_level b)) = Some d
     /\ shows (run_check b true false k) d)
  <-> b_clang b = true \/ exists v, b_gnuc b = Some v /\ 10 <= v.
Proof.
  intros Hv Hh. unfold level_valid in Hv.
  assert (D : diagnosing b = true <-> b_clang b = true \/ exists v, b_gnuc b = Some v /\ 10 <= v).
  { unfold diagnosing. rewrite orb_true_iff, Z.leb_le.
    destruct (b_gnuc b) as [v|]; cbn [pp_value].
    - split; (intros [H|H]; [left; exact H|]); [right; exists v; split; [reflexivity|exact H]|].
      right. destruct H as (v' & E & H). injection E as <-. exact H.
    - split; (intros [H|H]; [left; exact H|]); [lia|]. destruct H as (v' & E & H). discriminate E. }
  rewrite <- D. clear D.
  unfold run_check. rewrite Hh. cbn [negb andb].
  rewrite late_documented, (proj2 (Z.ltb_ge _ _) (proj1 Hv)).
  generalize (documented_level (b_level b)), Hv. clear Hv. intros l Hv.
  destruct (diagnosing b).
  - split; [reflexivity|]. intros _.
    apply (level_cases l); try exact Hv; eexists; (split; [reflexivity|]); cbn [shows Z.land]; cbn;
      first [reflexivity | eexists; reflexivity].
  - split; [|discriminate]. intros (d & Hd & Hs). exfalso.
    destruct d; cbn [shows] in Hs; [destruct Hs as [e Hs]|]; discriminate Hs.
Qed.

(** A failure seen by the compiler and diagnosed with a warning stops in trap(), whatever the level
    says. *)
Lemma known_warning b k :
  header_ok b = true -> diagnosing b = true -> documented_diagnosis (level_late b) = Some DWarning ->
  run_check b true false k = Runs true (if pp_defined (b_gnuc b) then ETrap else EAbort).
Proof.
  intros Hh Hd Hl. unfold run_check. rewrite Hh, Hd. cbn [negb andb].
  generalize dependent (level_late b). intros l Hl.
  destruct l as [|p|p]; [reflexivity| |discriminate Hl].
  do 3 (try destruct p as [p|p|]); try discriminate Hl; reflexivity.
Qed.

Lemma known_action_iff b k text :
  header_ok b = true -> diagnosing b = true -> documented_diagnosis (level_late b) = Some DWarning ->
  (exists a e, documented_action (documented_level (b_level b)) = Some a
     /\ run_check b true false k = Runs true e /\ acts e a text)
  <-> level_late b = 0 \/ (level_late b = 2 /\ exists v, b_gnuc b = Some v).
Proof.
  intros Hh Hd Hl. rewrite (known_warning b k Hh Hd Hl). rewrite <- late_documented.
  generalize dependent (level_late b). intros l Hl.
  assert (l = 0 \/ l = 2 \/ l = 4) as C.
  { destruct l as [|p|p]; [tauto| |discriminate Hl].
    do 3 (try destruct p as [p|p|]); try discriminate Hl; tauto. }
  destruct C as [-> | [-> | ->]].
  - split; [tauto|]. intros _. eexists; eexists. split; [reflexivity|]. split; [reflexivity|exact I].
  - split.
    + intros (a & e & Ha & He & Hc). right. split; [reflexivity|].
      injection Ha as <-. injection He as <-. cbn [acts] in Hc.
      destruct (b_gnuc b) as [v|]; [exists v; reflexivity|discriminate Hc].
    + intros [H | [_ [v Hg]]]; [discriminate H|]. rewrite Hg.
      eexists; eexists. split; [reflexivity|]. split; reflexivity.
  - split.
    + intros (a & e & Ha & He & Hc). injection Ha as <-. injection He as <-. cbn [acts] in Hc.
      destruct (pp_defined (b_gnuc b)); discriminate Hc.
    + intros [H | [H _]]; discriminate H.
Qed.

(** The header is accepted *)
Lemma header_iff b :
  header_ok b = true <->
  match b_level b with
  | None => True
  | Some l => l < 2 \/ (l < 4 /\ exists v, b_gnuc b = Some v) \/ b_stdio b = true
  end.
Proof.
  unfold header_ok, level_early. destruct (b_level b) as [l|]; cbn [pp_value].
  - destruct (Z.ltb_spec l 2) as [|H2]; [tauto|].
    destruct (b_gnuc b) as [v|]; cbn [pp_defined andb].
    + destruct (Z.ltb_spec l 4) as [|H4].
      * split; [|reflexivity]. intros _. right; left. split; [assumption|]. exists v. reflexivity.
      * split; [tauto|]. intros [H|[[H _]|H]]; [lia..|exact H].
    + split; [tauto|]. intros [H|[[_ [v H]]|H]]; [lia|discriminate H|exact H].
  - tauto.
Qed.

(** Constant evaluation *)
Lemma consteval_iff b :
  header_ok b = true ->
  (consteval_check b false = Rejected <-> 0 <= documented_level (b_level b))
  /\ (documented_level (b_level b) < 0 -> consteval_check b false = Runs false EContinue).
Proof.
  intros H. unfold consteval_check. rewrite H, late_documented. cbn [negb].
  destruct (Z.ltb_spec (documented_level (b_level b)) 0).
  - split; [split; [discriminate|lia]|reflexivity].
  - split; [split; [lia|reflexivity]|lia].
Qed.

(** Negative levels switch the checks off. *)
Lemma negative_off b known cond k :
  documented_level (b_level b) < 0 -> run_check b known cond k = Runs false EContinue.
Proof.
  intros H. unfold run_check. rewrite late_documented, (proj2 (Z.ltb_lt _ _) H).
  rewrite (proj2 (header_iff b)); [reflexivity|].
  destruct (b_level b) as [l|]; [|exact I]. cbn [documented_level] in H. left. lia.
Qed.

(** ** assume_matching_size *)

(** No level prints anything: the outcome of the check in front of the algorithms *)
Lemma matching_outcome b file line func d w :
  percent_free file -> header_ok b = true -> 0 <= level_late b -> d mod w <> 0 ->
  run_check b false (d mod w =? 0) (matching_check file line func d w)
  = Runs false (if (2 <=? level_early b) && (level_early b <? 4) && pp_defined (b_gnuc b)
                then ETrap else EUndefined).
Proof.
  intros Hf Hh Hl Hd. rewrite (proj2 (Z.eqb_neq _ _) Hd), (unknown_failure b _ Hh Hl).
  unfold invoke_ub. rewrite (matching_undefined file line func d w Hf).
  destruct (Z.ltb_spec (level_early b) 2), (Z.ltb_spec (level_early b) 4), (Z.leb_spec 2 (level_early b));
    try lia; destruct (pp_defined (b_gnuc b)); reflexivity.
Qed.

Lemma empty_message_text file line func scalar first :
  percent_free file ->
  printf (check_format (empty_check file line func scalar first))
         (check_args (empty_check file line func scalar first))
  = PText (error_text file line func
             (if first then "find_first_set(empty mask) is UB" else "find_last_set(empty mask) is UB")
             (if scalar then "k[0]" else "any_of(k)")).
Proof. exact (empty_message file line func scalar first). Qed.

Lemma known_four b k :
  b_level b = Some 4 -> b_stdio b = true -> (b_clang b = true \/ exists v, b_gnuc b = Some v /\ 10 <= v) ->
  exists e, run_check b true false k = Runs true e /\ (e = ETrap \/ e = EAbort).
Proof.
  intros Hl Hs Hd.
  assert (Hh : header_ok b = true) by (apply header_iff; rewrite Hl; tauto).
  assert (D : diagnosing b = true).
  { unfold diagnosing. destruct Hd as [-> | (v & -> & H)]; [reflexivity|].
    cbn [pp_value]. rewrite (proj2 (Z.leb_le _ _) H). apply orb_true_r. }
  exists (if pp_defined (b_gnuc b) then ETrap else EAbort). split.
  - apply known_warning; [assumption..|]. unfold level_late. rewrite Hl. reflexivity.
  - destruct (pp_defined (b_gnuc b)); tauto.
Qed.

Lemma matching_effect b file line func d w :
  width_ok w -> (forall n, d <> n * w) ->
  percent_free file -> header_ok b = true -> level_valid (b_level b) ->
  run_check b false (d mod w =? 0) (matching_check file line func d w)
  = Runs false (match b_level b, b_gnuc b with
                | Some 2, Some _ | Some 3, Some _ => ETrap
                | _, _ => EUndefined
                end).
Proof.
  intros Hw Hn Hf Hh Hv.
  assert (Hd : d mod w <> 0).
  { intros H0. apply (Hn (d / w)).
    pose proof (Z.div_mod d w ltac:(unfold width_ok in Hw; lia)) as E. lia. }
  unfold level_valid in Hv.
  rewrite (matching_outcome b file line func d w Hf Hh); [|rewrite late_documented; lia|exact Hd].
  unfold level_early. destruct (b_level b) as [l|]; [|reflexivity]. cbn [pp_value documented_level] in *.
  apply (level_cases l); try exact Hv; destruct (b_gnuc b); reflexivity.
Qed.

Lemma mismatch_effect {T St A : Type} (f : St -> list (list T) -> St * list (list T))
    (opv : list (list T) -> list T) (tr : list (list T) -> list A) (op : A -> A -> A)
    c pol w wb first last dst srcs2 (m : mem T) st init b file line func :
  p_match pol = true -> width_ok w -> range_ok first last -> (forall n, last - first <> n * w) ->
  percent_free file -> header_ok b = true -> level_valid (b_level b) ->
  run_for_each f c pol w wb first last m st = Stop STrap
  /\ run_transform opv c pol w first last dst srcs2 m = Stop STrap
  /\ transform_reduce c op tr m pol w first last srcs2 init = Stop STrap
  /\ run_check b false ((last - first) mod w =? 0) (matching_check file line func (last - first) w)
     = Runs false (match b_level b, b_gnuc b with
                   | Some 2, Some _ | Some 3, Some _ => ETrap
                   | _, _ => EUndefined
                   end).
Proof.
  intros Hm Hw Hr Hn Hf Hh Hv.
  split; [apply (for_each_trap f c pol w wb first last m st); try assumption; exact (proj1 Hr)|].
  split; [apply (transform_trap opv c pol w first last dst srcs2 m); try assumption; exact (proj1 Hr)|].
  split; [apply transform_reduce_trap; try assumption; intros [n H]; exact (Hn n H)|].
  apply matching_effect; assumption.
Qed.
