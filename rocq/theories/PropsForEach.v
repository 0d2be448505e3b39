(** Property theorems C01-C05, C10, C11: vir::for_each. *)
From Verif Require Import Base ExecModel ExecSpec ExecThm ExecExamples ExactSpec ExecExact
  WriteBackExact AlignedProofs MatchSame.

(** C01.  Reading "nothing else": [m] may be unmapped everywhere outside [first,last); the run
    still succeeds, so nothing outside is read or written. *)
Theorem C01_for_each_visits_all_in_order :
  forall (T St : Type) (f : St -> list (list T) -> St * list (list T)) c pol w wb first last m st,
    target_ok c -> c_ce c = false -> policy_ok pol -> plain pol -> width_ok w -> range_ok first last ->
    size_matches pol w first last -> keeps_lanes f -> mapped m first last ->
    exists s, run_for_each f c pol w wb first last m st = Ok s
              /\ range_is m first last (seen (s_trace s))
              /\ s_st s = state_after f st (s_trace s)
              /\ forall a, ~ (first <= a < last) -> s_mem s a = m a.
Proof. exact for_each_visits_plain. Qed.
Print Assumptions C01_for_each_visits_all_in_order.

Example C01_instance :
  ex_obs 0 21 (run_for_each ex_f (ex_cfg 4 false false) (pol_unroll 2) 4 true 0 21 (ex_mem 0 21) 0)
  = Some ([[[100;101;102;103];[104;105;106;107]]; [[108;109;110;111];[112;113;114;115]];
           [[116;117;118;119]]; [[120]]], 4,
          Some [200;202;204;206;208;210;212;214;216;218;220;222;224;226;228;230;232;234;236;238;240])
  /\ target_ok (ex_cfg 4 false false) /\ plain (pol_unroll 2) /\ mapped (ex_mem 0 21) 0 21.
Proof.
  split; [vm_compute; reflexivity|]. split; [now apply ex_target|]. split; [now split|apply ex_mapped].
Qed.

(** C01 with any policy, provided the range reaches the first aligned address. *)
Theorem C01_for_each_visits_all_with_prologue :
  forall (T St : Type) (f : St -> list (list T) -> St * list (list T)) c pol w wb first last m st,
    target_ok c -> c_ce c = false -> policy_ok pol -> width_ok w -> range_ok first last ->
    size_matches pol w first last -> reaches_alignment c pol w first last ->
    keeps_lanes f -> mapped m first last ->
    exists s, run_for_each f c pol w wb first last m st = Ok s
              /\ range_is m first last (seen (s_trace s))
              /\ s_st s = state_after f st (s_trace s)
              /\ forall a, ~ (first <= a < last) -> s_mem s a = m a.
Proof. exact for_each_visits. Qed.
Print Assumptions C01_for_each_visits_all_with_prologue.

Example C01_instance_prologue :
  ex_obs 0 14 (run_for_each ex_f (ex_cfg 4 false false) pol_aligned 8 true 0 14 (ex_mem 0 14) 0)
  = Some ([[[100]]; [[101;102]]; [[103;104;105;106]];
           [[107;108;109;110]]; [[111;112]]; [[113]]], 6,
          Some [200;202;204;206;208;210;212;214;216;218;220;222;224;226])
  /\ reaches_alignment (ex_cfg 4 false false) pol_aligned 8 0 14.
Proof.
  split; [vm_compute; reflexivity|]. split; [|discriminate].
  intros _ _ _. exists 7. split; [lia|]. exists 1. reflexivity.
Qed.

(** C02 *)
Theorem C02_for_each_write_back :
  forall (T St : Type) (f : St -> list (list T) -> St * list (list T)) (g : T -> T)
         c pol w first last m st,
    target_ok c -> c_ce c = false -> policy_ok pol -> width_ok w -> range_ok first last ->
    size_matches pol w first last -> reaches_alignment c pol w first last ->
    lanewise g f -> mapped m first last ->
    exists s, run_for_each f c pol w true first last m st = Ok s
              /\ forall a, s_mem s a = map_range g m first last a.
Proof. exact for_each_map. Qed.
Print Assumptions C02_for_each_write_back.

(** C02 for an arbitrary stateful callable: what it leaves in its arguments is what memory gets. *)
Theorem C02_for_each_write_back_stateful :
  forall (T St : Type) (f : St -> list (list T) -> St * list (list T)) c pol w first last m st,
    target_ok c -> c_ce c = false -> policy_ok pol -> width_ok w -> range_ok first last ->
    size_matches pol w first last -> reaches_alignment c pol w first last ->
    keeps_lanes f -> mapped m first last ->
    exists s, run_for_each f c pol w true first last m st = Ok s
              /\ range_is (s_mem s) first last (seen (left_behind f st (s_trace s)))
              /\ forall a, ~ (first <= a < last) -> s_mem s a = m a.
Proof. exact for_each_stateful. Qed.
Print Assumptions C02_for_each_write_back_stateful.

Theorem C02_for_each_by_value_changes_nothing :
  forall (T St : Type) (f : St -> list (list T) -> St * list (list T)) c pol w first last m st,
    target_ok c -> c_ce c = false -> policy_ok pol -> width_ok w -> range_ok first last ->
    size_matches pol w first last -> reaches_alignment c pol w first last ->
    keeps_lanes f -> mapped m first last ->
    exists s, run_for_each f c pol w false first last m st = Ok s /\ forall a, s_mem s a = m a.
Proof. exact for_each_value. Qed.
Print Assumptions C02_for_each_by_value_changes_nothing.

(** C02 without a prologue: no condition on alignment. *)
Theorem C02_for_each_write_back_plain :
  forall (T St : Type) (f : St -> list (list T) -> St * list (list T)) (g : T -> T)
         c pol w first last m st,
    target_ok c -> c_ce c = false -> policy_ok pol -> plain pol -> width_ok w -> range_ok first last ->
    size_matches pol w first last -> lanewise g f -> mapped m first last ->
    exists s, run_for_each f c pol w true first last m st = Ok s
              /\ forall a, s_mem s a = map_range g m first last a.
Proof. exact @write_back_plain. Qed.
Print Assumptions C02_for_each_write_back_plain.

(** C02, the exact extent: with nothing but the range mapped, both halves of the claim hold exactly
    unless the range is not empty, the policy asks for alignment, and neither an element nor the end
    of the range is at an aligned address. *)
Theorem C02_for_each_write_back_iff :
  forall (T St : Type) (f : St -> list (list T) -> St * list (list T)) (g : T -> T)
         c pol w first last m st,
    libstdcxx_target c -> c_ce c = false -> policy_ok pol -> width_ok w -> range_ok first last ->
    (last - first) * c_sz c < 2 ^ 64 -> size_matches pol w first last ->
    lanewise g f -> mapped m first last -> (forall a, ~ (first <= a < last) -> m a = None) ->
    ((exists s, run_for_each f c pol w true first last m st = Ok s
                /\ forall a, s_mem s a = map_range g m first last a)
       <-> first = last \/ ~ (aligns c pol w first last /\ no_aligned_address c w first last))
    /\ ((exists s, run_for_each f c pol w false first last m st = Ok s /\ forall a, s_mem s a = m a)
       <-> first = last \/ ~ (aligns c pol w first last /\ no_aligned_address c w first last)).
Proof. exact @write_back_iff. Qed.
Print Assumptions C02_for_each_write_back_iff.

(** Finding: if memory goes on behind such a range, elements outside are changed and elements inside
    are updated twice. *)
Theorem C02_for_each_write_back_refuted :
  exists c pol w first last (g : Z -> Z) (m : mem Z) s x y z,
    target_ok c /\ c_ce c = false /\ policy_ok pol /\ width_ok w /\ range_ok first last
    /\ size_matches pol w first last
    /\ mapped m first last /\ (forall a, m a <> None) /\ first < last
    /\ run_for_each (fun st ch => (st, map (map g) ch)) c pol w true first last m 0 = Ok s
    /\ m first = Some x /\ s_mem s first = Some y /\ y <> g x
    /\ m last = Some z /\ s_mem s last = Some (g z) /\ g z <> z.
Proof. exact write_back_refuted. Qed.
Print Assumptions C02_for_each_write_back_refuted.

Example C02_instance :
  option_map snd (ex_obs (-3) 10
     (run_for_each ex_f (ex_cfg 0 true false) pol_auto 3 true (-3) 10 (ex_mem (-3) 10) 0))
  = Some (Some [194;196;198;200;202;204;206;208;210;212;214;216;218])
  /\ lanewise (Z.mul 2) ex_f
  /\ reaches_alignment (ex_cfg 0 true false) pol_auto 3 (-3) 10
  /\ option_map snd (ex_obs 0 3
       (run_for_each ex_f (ex_cfg 0 true false) pol_auto 3 false 0 3 (ex_mem 0 3) 0))
     = Some (Some [100;101;102]).
Proof.
  split; [vm_compute; reflexivity|]. split; [exact ex_f_lanewise|].
  split; [split; [discriminate|cbn; lia]|]. vm_compute. reflexivity.
Qed.

(** C03: with a prologue the run succeeds on memory that is mapped on the range only, as soon as
    the range reaches the aligned address.  (With auto_prologue nothing else is needed.) *)
Theorem C03_for_each_prologue_stays_inside :
  forall (T St : Type) (f : St -> list (list T) -> St * list (list T)) c pol w wb first last m st,
    target_ok c -> c_ce c = false -> policy_ok pol -> width_ok w -> range_ok first last ->
    size_matches pol w first last -> reaches_alignment c pol w first last ->
    keeps_lanes f -> mapped m first last ->
    (forall a, ~ (first <= a < last) -> m a = None) ->
    exists s, run_for_each f c pol w wb first last m st = Ok s
              /\ forall a, ~ (first <= a < last) -> s_mem s a = None.
Proof. exact for_each_inside. Qed.
Print Assumptions C03_for_each_prologue_stays_inside.

Theorem C03_for_each_auto_prologue_stays_inside :
  forall (T St : Type) (f : St -> list (list T) -> St * list (list T)) c pol w wb first last m st,
    target_ok c -> c_ce c = false -> policy_ok pol -> p_aligned pol = false ->
    w * c_sz c <= 4000 -> width_ok w -> range_ok first last ->
    size_matches pol w first last -> keeps_lanes f -> mapped m first last ->
    (forall a, ~ (first <= a < last) -> m a = None) ->
    exists s, run_for_each f c pol w wb first last m st = Ok s
              /\ forall a, ~ (first <= a < last) -> s_mem s a = None.
Proof. exact for_each_inside_auto. Qed.
Print Assumptions C03_for_each_auto_prologue_stays_inside.

Example C03_instance :
  (* 3 elements, misaligned by one: auto_prologue declines to align and stays inside *)
  ex_obs 0 3 (run_for_each ex_f (ex_cfg 4 false false) pol_auto 8 false 0 3 (ex_mem 0 3) 0)
  = Some ([[[100;101]]; [[102]]], 2, Some [100;101;102])
  /\ mapped (ex_mem 0 3) 0 3 /\ (forall a, ~ (0 <= a < 3) -> ex_mem 0 3 a = None).
Proof.
  split; [vm_compute; reflexivity|]. split; [apply ex_mapped|]. intros a Ha. unfold ex_mem.
  destruct (Z.leb_spec 0 a), (Z.ltb_spec a 3); try reflexivity. lia.
Qed.

(** Finding: prefer_aligned on a two-element range starting one element after an aligned address
    accesses elements past the end. *)
Theorem C03_prefer_aligned_refuted :
  exists c pol w first last (m : mem Z),
    target_ok c /\ c_ce c = false /\ policy_ok pol /\ width_ok w /\ range_ok first last
    /\ p_match pol = false /\ mapped m first last /\ keeps_lanes ex_f
    /\ run_for_each ex_f c pol w false first last m 0 = Stop SUB.
Proof. exact prefer_aligned_refuted. Qed.
Print Assumptions C03_prefer_aligned_refuted.

(** Finding: the 4000-byte rule of auto_prologue is not enough for vectors larger than that. *)
Theorem C03_auto_prologue_huge_vector_refuted :
  exists c pol w first last (m : mem Z),
    target_ok c /\ c_ce c = false /\ policy_ok pol /\ p_aligned pol = false /\ width_ok w
    /\ range_ok first last /\ p_match pol = false /\ mapped m first last /\ keeps_lanes ex_f
    /\ run_for_each ex_f c pol w false first last m 0 = Stop SUB.
Proof. exact auto_huge_refuted. Qed.
Print Assumptions C03_auto_prologue_huge_vector_refuted.

(** C03, the exact extent of the finding.  Nothing but the range is mapped; the run then succeeds or is
    undefined, and is undefined exactly if the range is not empty, the policy asks for alignment, and
    neither an element nor the end of the range is at an aligned address. *)
Theorem C03_for_each_inside_iff :
  forall (T St : Type) (f : St -> list (list T) -> St * list (list T)) c pol w wb first last m st,
    libstdcxx_target c -> c_ce c = false -> policy_ok pol -> width_ok w -> range_ok first last ->
    (last - first) * c_sz c < 2 ^ 64 -> size_matches pol w first last ->
    keeps_lanes f -> mapped m first last -> (forall a, ~ (first <= a < last) -> m a = None) ->
    ((exists s, run_for_each f c pol w wb first last m st = Ok s)
       <-> first = last \/ ~ (aligns c pol w first last /\ no_aligned_address c w first last))
    /\ ((exists s, run_for_each f c pol w wb first last m st = Ok s)
        \/ run_for_each f c pol w wb first last m st = Stop SUB).
Proof. exact @for_each_inside_iff. Qed.
Print Assumptions C03_for_each_inside_iff.

(** The first aligned address is 7: a range of six elements is overrun, one of seven is not. *)
Example C03_inside_iff_instance :
  libstdcxx_target (ex_cfg 4 false false)
  /\ aligns (ex_cfg 4 false false) pol_aligned 8 0 6
  /\ no_aligned_address (ex_cfg 4 false false) 8 0 6
  /\ run_for_each ex_f (ex_cfg 4 false false) pol_aligned 8 false 0 6 (ex_mem 0 6) 0 = Stop SUB
  /\ ~ no_aligned_address (ex_cfg 4 false false) 8 0 7
  /\ ex_obs 0 7 (run_for_each ex_f (ex_cfg 4 false false) pol_aligned 8 false 0 7 (ex_mem 0 7) 0)
     = Some ([[[100]]; [[101;102]]; [[103;104;105;106]]], 3, Some [100;101;102;103;104;105;106]).
Proof.
  split; [now repeat split|]. split; [split; [lia|]; split; [now exists 5|now left]|].
  split; [|split; [vm_compute; reflexivity|split; [|vm_compute; reflexivity] ] ].
  - intros a Ha [q Hq]. unfold address in Hq. cbn [c_base c_sz c_malign ex_cfg] in Hq. change (bit_ceil (8 * 4)) with 32 in Hq. lia.
  - intros H. apply (H 7); [lia|]. now exists 1.
Qed.

(** C04: every access made with vector_aligned is aligned - for every length, also when the
    prologue leaves the range. *)
Theorem C04_for_each_aligned_accesses :
  forall c pol w first last,
    target_ok c -> c_ce c = false -> policy_ok pol -> width_ok w -> range_ok first last ->
    forall k i, In k (fst (for_each c pol w first last)) -> k_al k = true ->
    (i < k_n k)%nat -> 0 < k_k k ->
    is_aligned c (k_pos k + k_k k * Z.of_nat i) (k_k k).
Proof. exact for_each_aligned_any. Qed.
Print Assumptions C04_for_each_aligned_accesses.

Example C04_instance :
  for_each (ex_cfg 20 false false) (pol_aligned_unroll 2) 4 0 16
  = ([mkcall 0 1 1 true; mkcall 1 2 1 true; mkcall 3 4 2 true; mkcall 11 4 1 true;
      mkcall 15 1 1 true], Ok tt)
  /\ is_aligned (ex_cfg 20 false false) (3 + 4 * 1) 4
  /\ ~ is_aligned (ex_cfg 20 false false) 0 4.
Proof.
  split; [vm_compute; reflexivity|]. split.
  - exists 3. reflexivity.
  - intros [q Hq]. cbn in Hq. change (bit_ceil 16) with 16 in Hq. lia.
Qed.

(** Finding: the hypothesis of naturally aligned elements is needed: with 8-byte elements at
    4-byte aligned addresses (possible on i386) the prologue reaches [unreachable()]. *)
Theorem C04_underaligned_elements_refuted :
  exists c pol w first last (m : mem Z),
    policy_ok pol /\ width_ok w /\ range_ok first last /\ mapped m first last /\ keeps_lanes ex_f
    /\ (exists a, first <= a /\ a + 50 <= last)
    /\ (forall k, 0 < k -> c_malign c k = bit_ceil (k * c_sz c))
    /\ run_for_each ex_f c pol w false first last m 0 = Stop SUB.
Proof. exact underaligned_refuted. Qed.
Print Assumptions C04_underaligned_elements_refuted.

(** C05: except for width 2 with a non-empty even number of elements, constant evaluation and
    run time agree. *)
Theorem C05_for_each_consteval_same :
  forall (T St : Type) (f : St -> list (list T) -> St * list (list T)) (g : T -> T)
         c c' pol w first last m st,
    target_ok c -> c_ce c = false -> c_ce c' = true ->
    policy_ok pol -> width_ok w -> range_ok first last ->
    size_matches pol w first last -> reaches_alignment c pol w first last ->
    lanewise g f -> mapped m first last ->
    (w = 2 -> first = last \/ (last - first) mod 2 <> 0) ->
    exists s s', run_for_each f c pol w true first last m st = Ok s
                 /\ run_for_each f c' pol w true first last m st = Ok s'
                 /\ seen (s_trace s) = seen (s_trace s')
                 /\ range_is m first last (seen (s_trace s'))
                 /\ (forall a, s_mem s a = s_mem s' a).
Proof. exact for_each_ce_same. Qed.
Print Assumptions C05_for_each_consteval_same.

Example C05_instance :
  ex_obs 0 7 (run_for_each ex_f (ex_cfg 4 false true) (pol_unroll 3) 4 true 0 7 (ex_mem 0 7) 0)
  = Some ([[[100;101;102;103]]; [[104;105]]; [[106]]], 3, Some [200;202;204;206;208;210;212])
  /\ reaches_alignment (ex_cfg 4 false false) (pol_unroll 3) 4 0 7.
Proof. split; [vm_compute; reflexivity|]. split; discriminate. Qed.

(** Finding: width 2, two elements: the last one is visited (and updated) twice. *)
Theorem C05_for_each_consteval_refuted :
  exists c w first last (m : mem Z) s,
    target_ok c /\ c_ce c = true /\ width_ok w /\ range_ok first last /\ mapped m first last
    /\ lanewise (Z.mul 2) ex_f
    /\ run_for_each ex_f c pol0 w true first last m 0 = Ok s
    /\ ~ range_is m first last (seen (s_trace s))
    /\ exists a, s_mem s a <> map_range (Z.mul 2) m first last a.
Proof. exact consteval_refuted. Qed.
Print Assumptions C05_for_each_consteval_refuted.

(** C05, the exact extent of the finding: width 2 and a non-empty even number of elements.  The last
    element is visited again, as the first visit left it. *)
Theorem C05_for_each_consteval_width_two :
  forall (T St : Type) (f : St -> list (list T) -> St * list (list T)) c pol first last m st (g : T -> T),
    c_ce c = true -> range_ok first last -> first < last -> (last - first) mod 2 = 0 ->
    lanewise g f -> forall l x, range_is m first last (l ++ [x]) ->
    exists s, run_for_each f c pol 2 true first last m st = Ok s
      /\ seen (s_trace s) = l ++ [x; g x]
      /\ s_mem s (last - 1) = Some (g (g x))
      /\ forall a, a <> last - 1 -> s_mem s a = map_range g m first last a.
Proof. exact @for_each_two. Qed.
Print Assumptions C05_for_each_consteval_width_two.

(** Without write-back it is shown twice. *)
Theorem C05_for_each_consteval_width_two_by_value :
  forall (T St : Type) (f : St -> list (list T) -> St * list (list T)) c pol first last m st,
    c_ce c = true -> range_ok first last -> first < last -> (last - first) mod 2 = 0 ->
    keeps_lanes f -> forall l x, range_is m first last (l ++ [x]) ->
    exists s, run_for_each f c pol 2 false first last m st = Ok s
      /\ seen (s_trace s) = l ++ [x; x]
      /\ s_st s = state_after f st (s_trace s)
      /\ Forall (fun ch => exists y, ch = [y]) (s_trace s)
      /\ forall a, s_mem s a = m a.
Proof. exact @for_each_two_value. Qed.
Print Assumptions C05_for_each_consteval_width_two_by_value.

Example C05_width_two_instance :
  range_is (ex_mem 0 4) 0 4 ([100; 101; 102] ++ [103])
  /\ ex_obs 0 4 (run_for_each ex_f (ex_cfg 4 false true) pol0 2 true 0 4 (ex_mem 0 4) 0)
     = Some ([[[100;101]]; [[102;103]]; [[206]]], 3, Some [200;202;204;412])
  /\ ex_obs 0 4 (run_for_each ex_f (ex_cfg 4 false true) pol0 2 false 0 4 (ex_mem 0 4) 0)
     = Some ([[[100;101]]; [[102;103]]; [[103]]], 3, Some [100;101;102;103]).
Proof.
  split; [|split; vm_compute; reflexivity]. split; [reflexivity|]. intros i Hi. cbn in Hi.
  do 4 (destruct i as [|i]; [reflexivity|]). lia.
Qed.

(** C10: a mismatch traps, whatever the memory (even if nothing is mapped), and no chunk is
    ever loaded. *)
Theorem C10_for_each_mismatch_traps_first :
  forall (T St : Type) (f : St -> list (list T) -> St * list (list T)) c pol w wb first last m st,
    p_match pol = true -> width_ok w -> first <= last -> (forall n, last - first <> n * w) ->
    run_for_each f c pol w wb first last m st = Stop STrap
    /\ fst (for_each c pol w first last) = [].
Proof. exact @for_each_trap. Qed.
Print Assumptions C10_for_each_mismatch_traps_first.

Theorem C10_for_each_matching_uniform_chunks :
  forall (T St : Type) (f : St -> list (list T) -> St * list (list T)) (g : T -> T)
         c pol w wb first last m st,
    target_ok c -> c_ce c = false -> policy_ok pol -> width_ok w -> range_ok first last ->
    p_match pol = true -> (exists n, last - first = n * w) -> lanewise g f -> mapped m first last ->
    exists s s', run_for_each f c pol w wb first last m st = Ok s
      /\ Forall (Forall (fun chunk => Z.of_nat (length chunk) = w)) (s_trace s)
      /\ run_for_each f c (mkpol (p_aligned pol) (p_auto pol) false (p_unroll pol) (p_size pol))
                      w wb first last m st = Ok s'
      /\ seen (s_trace s) = seen (s_trace s') /\ (forall a, s_mem s a = s_mem s' a).
Proof. exact for_each_match_uniform. Qed.
Print Assumptions C10_for_each_matching_uniform_chunks.

Example C10_instance :
  ex_obs 0 6 (run_for_each ex_f (ex_cfg 4 false false) pol_match 3 false 0 6 (ex_mem 0 6) 0)
  = Some ([[[100;101;102]]; [[103;104;105]]], 2, Some [100;101;102;103;104;105])
  /\ run_for_each ex_f (ex_cfg 4 false false) pol_match 4 true 0 6 (fun _ => None) 0 = Stop STrap
  /\ policy_ok pol_match.
Proof. split; [vm_compute; reflexivity|]. split; [vm_compute; reflexivity|]. now repeat split. Qed.

(** C10: for any callable, state and memory, and in constant evaluation too, the modifier changes
    nothing if the size matches; and only chunks of the full width are asked for. *)
Theorem C10_for_each_matching_same :
  forall (T St : Type) (f : St -> list (list T) -> St * list (list T)) c pol w wb first last m st,
    policy_ok pol -> width_ok w -> first <= last -> size_matches pol w first last ->
    run_for_each f c pol w wb first last m st
    = run_for_each f c (mkpol (p_aligned pol) (p_auto pol) false (p_unroll pol) (p_size pol))
                   w wb first last m st.
Proof. exact @run_for_each_matching_same. Qed.
Print Assumptions C10_for_each_matching_same.

Theorem C10_for_each_uniform_calls :
  forall c pol w first last,
    target_ok c -> c_ce c = false -> policy_ok pol -> width_ok w -> range_ok first last ->
    p_match pol = true -> Forall (fun k => k_k k = w) (fst (for_each c pol w first last)).
Proof. exact for_each_uniform_calls. Qed.
Print Assumptions C10_for_each_uniform_calls.

(** Not so if the size does not match. *)
Example C10_same_instance :
  let c := ex_cfg 4 false false in
  for_each c pol_match 4 0 12 = ([mkcall 0 4 1 false; mkcall 4 4 1 false; mkcall 8 4 1 false], Ok tt)
  /\ for_each c pol0 4 0 12 = for_each c pol_match 4 0 12
  /\ for_each c pol0 4 0 13 <> for_each c pol_match 4 0 13.
Proof. vm_compute. repeat split. discriminate. Qed.

(** C11 *)
Theorem C11_for_each_chunk_shapes :
  forall (T St : Type) (f : St -> list (list T) -> St * list (list T)) c pol w wb first last m st,
    target_ok c -> c_ce c = false -> policy_ok pol -> width_ok w -> range_ok first last ->
    size_matches pol w first last -> reaches_alignment c pol w first last ->
    keeps_lanes f -> mapped m first last ->
    exists s, run_for_each f c pol w wb first last m st = Ok s
              /\ shapes_ok (Z.to_nat w) (Z.to_nat (p_unroll pol)) (s_trace s).
Proof. exact for_each_shapes. Qed.
Print Assumptions C11_for_each_chunk_shapes.

(** C11 for every range, also when the prologue leaves it. *)
Theorem C11_for_each_chunk_shapes_always :
  forall (T St : Type) (f : St -> list (list T) -> St * list (list T)) c pol w wb first last m st s,
    target_ok c -> c_ce c = false -> policy_ok pol -> width_ok w -> range_ok first last ->
    run_for_each f c pol w wb first last m st = Ok s ->
    shapes_ok (Z.to_nat w) (Z.to_nat (p_unroll pol)) (s_trace s).
Proof. exact @for_each_shapes_any. Qed.
Print Assumptions C11_for_each_chunk_shapes_always.

(** A range of six elements that is overrun: the prologue takes seven, the epilogue seven more. *)
Example C11_always_instance :
  option_map (map (map (@length Z)))
    (match run_for_each ex_f (ex_cfg 4 false false) pol_aligned 8 false 0 6 (fun a => Some a) 0 with
     | Ok s => Some (s_trace s) | Stop _ => None end)
  = Some [[1]; [2]; [4]; [4]; [2]; [1]]%nat.
Proof. vm_compute. reflexivity. Qed.

Example C11_instance :
  option_map (fun x => map (map (@length Z)) (fst (fst x)))
    (ex_obs 0 45 (run_for_each ex_f (ex_cfg 12 true false) (pol_aligned_unroll 2) 8 true 0 45 (ex_mem 0 45) 0))
  = Some ([[1]; [4]; [8;8]; [8;8]; [8]]%nat) /\
  option_map (fun x => map (map (@length Z)) (fst (fst x)))
    (ex_obs 0 45 (run_for_each ex_f (ex_cfg 0 false false) (pol_unroll 2) 14 true 0 27 (ex_mem 0 27) 0))
  = Some ([[14]; [8]; [4]; [1]]%nat).
Proof. split; vm_compute; reflexivity. Qed.
