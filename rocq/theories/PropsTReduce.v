(** Property theorems C03, C04, C07, C08, C10: vir::transform_reduce and vir::reduce. *)
From Verif Require Import Base ExecModel ExecSpec ExecExamples TransformModel ReduceModel ReduceSpec
  TReduceModel TReduceSpec TReduceThm TReduceExamples ExactSpec TReduceExact AlignedReduce
  MatchSame.

(** C07 at run time.  Any number of input ranges; memory may be unmapped outside of them. *)
Theorem C07_transform_reduce_generalised_sum :
  forall (T A : Type) (g : list T -> A) (tr : list (list T) -> list A) (op : A -> A -> A)
         c pol w first last srcs2 (m : mem T) vals init,
    target_ok c -> c_ce c = false -> plain pol -> width_ok w -> range_ok first last ->
    size_matches pol w first last ->
    (forall k, 0 < k -> transforms_at g tr (S (length srcs2)) k) ->
    transformed_are g m (first :: srcs2) (last - first) vals ->
    exists x, transform_reduce c op tr m pol w first last srcs2 init = Ok x
              /\ gsum op (init :: vals) x.
Proof. exact @transform_reduce_plain. Qed.
Print Assumptions C07_transform_reduce_generalised_sum.

(** C07 for associative and commutative operations: the sequential fold. *)
Theorem C07_transform_reduce_is_fold :
  forall (T A : Type) (g : list T -> A) (tr : list (list T) -> list A) (op : A -> A -> A)
         c pol w first last srcs2 (m : mem T) vals init,
    assoc_comm op ->
    target_ok c -> c_ce c = false -> policy_ok pol -> width_ok w -> range_ok first last ->
    size_matches pol w first last -> prologue_room c pol w first last ->
    (forall k, 0 < k -> transforms_at g tr (S (length srcs2)) k) ->
    transformed_are g m (first :: srcs2) (last - first) vals ->
    transform_reduce c op tr m pol w first last srcs2 init = Ok (seq_sum op init vals).
Proof. exact @transform_reduce_fold. Qed.
Print Assumptions C07_transform_reduce_is_fold.

(** C07 in constant evaluation: the sequential fold, whatever the operation. *)
Theorem C07_transform_reduce_consteval :
  forall (T A : Type) (g : list T -> A) (tr : list (list T) -> list A) (op : A -> A -> A)
         c pol w first last srcs2 (m : mem T) vals init,
    c_ce c = true -> width_ok w -> range_ok first last -> size_matches pol w first last ->
    transforms_at g tr (S (length srcs2)) 1 ->
    transformed_are g m (first :: srcs2) (last - first) vals ->
    transform_reduce c op tr m pol w first last srcs2 init = Ok (seq_sum op init vals).
Proof. exact @transform_reduce_consteval. Qed.
Print Assumptions C07_transform_reduce_consteval.

(** C07 for the overloads of vir::reduce and the inner product. *)
Theorem C07_reduce_generalised_sum :
  forall (T : Type) (op : T -> T -> T) c pol w first last (m : mem T) l init,
    target_ok c -> c_ce c = false -> policy_ok pol -> width_ok w -> range_ok first last ->
    size_matches pol w first last -> prologue_room c pol w first last ->
    range_is m first last l ->
    exists x, reduce_alg c op m pol w first last init = Ok x /\ gsum op (init :: l) x.
Proof. exact @reduce_alg_runtime. Qed.
Print Assumptions C07_reduce_generalised_sum.

Theorem C07_reduce_sums :
  forall (T : Type) (zero : T) (plus : T -> T -> T) c pol w first last (m : mem T) l,
    assoc_comm plus ->
    target_ok c -> c_ce c = false -> policy_ok pol -> width_ok w -> range_ok first last ->
    size_matches pol w first last -> prologue_room c pol w first last ->
    range_is m first last l ->
    sum_alg zero plus c m pol w first last = Ok (seq_sum plus zero l).
Proof. exact @sum_alg_runtime. Qed.
Print Assumptions C07_reduce_sums.

Theorem C07_inner_product :
  forall (T : Type) (plus mult : T -> T -> T) c pol w first1 last1 first2 (m : mem T) l1 l2 init,
    target_ok c -> c_ce c = false -> policy_ok pol -> width_ok w -> range_ok first1 last1 ->
    size_matches pol w first1 last1 -> prologue_room c pol w first1 last1 ->
    range_is m first1 last1 l1 -> range_is m first2 (first2 + (last1 - first1)) l2 ->
    exists x, inner_product plus mult c m pol w first1 last1 first2 init = Ok x
              /\ gsum plus (init :: map (fun xy => mult (fst xy) (snd xy)) (combine l1 l2)) x.
Proof. exact @inner_product_runtime. Qed.
Print Assumptions C07_inner_product.

(** Unrolled tree, main loop and epilogue; the grouping made visible by a free operation. *)
Example C07_instance :
  reduce_alg (ex_cfg 4 false false) Z.add (ex_mem 0 31) (pol_unroll 3) 4 0 31 7 = Ok 3572
  /\ (exists l, range_is (ex_mem 0 31) 0 31 l /\ seq_sum Z.add 7 l = 3572) /\ plain (pol_unroll 3)
  /\ transform_reduce (ex_cfg 4 false false) Node (fun ch => map Leaf (hd [] ch)) (ex_mem 0 7)
       pol0 4 0 7 [] (Leaf 0)
     = Ok (Node (Leaf 0)
             (Node (Node (Node (Node (Leaf 100) (Leaf 102)) (Leaf 104))
                         (Node (Node (Leaf 101) (Leaf 103)) (Leaf 105)))
                   (Leaf 106)))
  /\ transforms_at (fun args => Leaf (hd 0 args)) (fun ch => map Leaf (hd [] ch)) 1 4
  /\ inner_product Z.add Z.mul (ex_cfg 4 false false) (fun a => Some a) pol_auto 4 0 9 100 5 = Ok 3809.
Proof.
  split; [vm_compute; reflexivity|].
  split; [eexists; split; [exact (ex_range_is 31)|vm_compute; reflexivity]|].
  split; [now split|]. split; [vm_compute; reflexivity|]. split; [|vm_compute; reflexivity].
  intros [|ch [|? ?]] Hl HF; try discriminate. inversion HF; subst. cbn [hd]. rewrite map_length.
  split; [assumption|]. intros i args Ha. inversion Ha as [|? ? ? ? Hx]; subst.
  rewrite nth_error_map, Hx. reflexivity.
Qed.

(** C08: prefer_aligned and auto_prologue, if the prologue leaves something of the range. *)
Theorem C08_transform_reduce_prologue_partial :
  forall (T A : Type) (g : list T -> A) (tr : list (list T) -> list A) (op : A -> A -> A)
         c pol w first last srcs2 (m : mem T) vals init,
    target_ok c -> c_ce c = false -> policy_ok pol -> width_ok w -> range_ok first last ->
    size_matches pol w first last -> prologue_room c pol w first last ->
    (forall k, 0 < k -> transforms_at g tr (S (length srcs2)) k) ->
    transformed_are g m (first :: srcs2) (last - first) vals ->
    exists x, transform_reduce c op tr m pol w first last srcs2 init = Ok x
              /\ gsum op (init :: vals) x.
Proof. exact @transform_reduce_prologue. Qed.
Print Assumptions C08_transform_reduce_prologue_partial.

(** Prologue of three elements before address 16, from an unaligned start. *)
Example C08_instance :
  transform_reduce (ex_cfg 4 false false) Node (fun ch => map Leaf (hd [] ch)) (ex_mem 0 13)
    pol_aligned 4 0 13 [] (Leaf 0)
  = Ok (Node (Node (Node (Leaf 0) (Leaf 100)) (Node (Leaf 101) (Leaf 102)))
          (Node (Node (Node (Node (Leaf 103) (Leaf 107)) (Node (Leaf 105) (Leaf 109))) (Leaf 111))
                (Node (Node (Node (Leaf 104) (Leaf 108)) (Node (Leaf 106) (Leaf 110))) (Leaf 112))))
  /\ prologue_room (ex_cfg 4 false false) pol_aligned 4 0 13
  /\ prologue_room (ex_cfg 4 false false) pol_auto 4 0 13.
Proof.
  split; [vm_compute; reflexivity|]. split; split; try discriminate.
  - intros _ _ _. exists 3. split; [lia|]. exists 1. reflexivity.
  - intros _. split; [cbn; lia|]. intros _. exists 3. split; [lia|]. exists 1. reflexivity.
Qed.

(** Finding, C08 without the restriction: a non-empty range whose end is the first aligned address
    is entirely consumed by the prologue, and the algorithm then reaches unreachable(), with either
    modifier, although all memory is accessible. *)
Theorem C08_prologue_consumes_range_refuted :
  exists c pol1 pol2 w first last (m : mem Z) l,
    target_ok c /\ c_ce c = false /\ policy_ok pol1 /\ p_aligned pol1 = true
    /\ policy_ok pol2 /\ p_auto pol2 = true /\ width_ok w /\ w * c_sz c <= 4000
    /\ range_ok first last /\ first < last /\ range_is m first last l
    /\ (forall a, m a <> None)
    /\ (exists a, first <= a <= last /\ is_aligned c a w)
    /\ reduce_alg c Z.add m pol1 w first last 0 = Stop SUB
    /\ reduce_alg c Z.add m pol2 w first last 0 = Stop SUB.
Proof. exact prologue_whole_range_refuted. Qed.
Print Assumptions C08_prologue_consumes_range_refuted.

(** C08, the exact extent of the finding.  Nothing is mapped at the end of the range: the result is
    right if the prologue leaves an element, otherwise the run is undefined. *)
Theorem C08_transform_reduce_inside_iff :
  forall (T A : Type) (g : list T -> A) (tr : list (list T) -> list A) (op : A -> A -> A)
         c pol w first last srcs2 (m : mem T) vals init,
    libstdcxx_target c -> c_ce c = false -> policy_ok pol -> width_ok w -> range_ok first last ->
    (last - first) * c_sz c < 2 ^ 64 -> size_matches pol w first last -> first < last -> m last = None ->
    (forall k, 0 < k -> transforms_at g tr (S (length srcs2)) k) ->
    transformed_are g m (first :: srcs2) (last - first) vals ->
    (takes_all c pol w first last -> transform_reduce c op tr m pol w first last srcs2 init = Stop SUB)
    /\ (~ takes_all c pol w first last ->
        exists x, transform_reduce c op tr m pol w first last srcs2 init = Ok x /\ gsum op (init :: vals) x).
Proof. exact @transform_reduce_inside_iff. Qed.
Print Assumptions C08_transform_reduce_inside_iff.

(** The first aligned address is 7: undefined up to seven elements with prefer_aligned, only for exactly
    seven with auto_prologue (these few bytes get a prologue only if it fits). *)
Example C08_inside_iff_instance :
  takes_all (ex_cfg 4 false false) pol_aligned 8 0 6 /\ takes_all (ex_cfg 4 false false) pol_aligned 8 0 7
  /\ takes_all (ex_cfg 4 false false) pol_auto 8 0 7
  /\ ~ takes_all (ex_cfg 4 false false) pol_auto 8 0 6 /\ ~ takes_all (ex_cfg 4 false false) pol_aligned 8 0 8
  /\ map (fun n => reduce_alg (ex_cfg 4 false false) Z.add (ex_mem 0 n) pol_aligned 8 0 n 0) [6; 7; 8]
     = [Stop SUB; Stop SUB; Ok 828]
  /\ map (fun n => reduce_alg (ex_cfg 4 false false) Z.add (ex_mem 0 n) pol_auto 8 0 n 0) [6; 7; 8]
     = [Ok 615; Stop SUB; Ok 828].
Proof.
  assert (H : forall a, 0 <= a < 7 -> ~ is_aligned (ex_cfg 4 false false) a 8).
  { intros a Ha [q Hq]. unfold address in Hq. cbn [c_base c_sz c_malign ex_cfg] in Hq. change (bit_ceil (8 * 4)) with 32 in Hq. lia. }
  split; [|split; [|split; [|split; [|split; [|split; vm_compute; reflexivity] ] ] ] ].
  - split; [lia|]. split; [now exists 5|]. split; [now left|]. intros a Ha. apply H. lia.
  - split; [lia|]. split; [now exists 5|]. split; [now left|]. intros a Ha. apply H. lia.
  - split; [lia|]. split; [now exists 5|]. split; [|intros a Ha; apply H; lia].
    right. split; [reflexivity|]. right. now exists 1.
  - intros (_ & _ & [E|[_ [E|E] ] ] & _); [discriminate|cbn in E; lia|]. revert E. apply H. lia.
  - intros (_ & _ & _ & E). apply (E 7); [lia|]. now exists 1.
Qed.

(** Finding, C03: with prefer_aligned a range ending before the aligned address is overrun: undefined
    if nothing is there, a wrong result if something is. *)
Theorem C03_transform_reduce_prefer_aligned_refuted :
  exists c pol w first last (m1 m2 : mem Z) l x,
    target_ok c /\ c_ce c = false /\ policy_ok pol /\ width_ok w /\ range_ok first last
    /\ p_match pol = false
    /\ range_is m1 first last l /\ range_is m2 first last l
    /\ reduce_alg c Z.add m1 pol w first last 0 = Stop SUB
    /\ reduce_alg c Z.add m2 pol w first last 0 = Ok x /\ ~ gsum Z.add (0 :: l) x.
Proof. exact short_range_refuted. Qed.
Print Assumptions C03_transform_reduce_prefer_aligned_refuted.

(** C04 for transform_reduce: the result does not depend on what a misaligned vector_aligned load
    would do - none is ever made, for every range, also when the prologue leaves it. *)
Theorem C04_transform_reduce_aligned_loads :
  forall (A : Type) (op : A -> A -> A) (ld1 ld2 : bool -> list Z -> Z -> res (list A))
         c pol w first last srcs2 init,
    target_ok c -> policy_ok pol -> width_ok w -> range_ok first last ->
    (forall al p ps k, (al = true -> is_aligned c p k) -> ld1 al (p :: ps) k = ld2 al (p :: ps) k) ->
    transform_reduce_on op ld1 c pol w first last srcs2 init
    = transform_reduce_on op ld2 c pol w first last srcs2 init.
Proof. exact @transform_reduce_agree. Qed.
Print Assumptions C04_transform_reduce_aligned_loads.

(** In particular, checking the alignment of the loads changes nothing: [load_chunk] with and without
    the check.  Loads that reject every vector_aligned access do make a difference. *)
Example C04_transform_reduce_instance :
  let c := ex_cfg 4 false false in
  let unchecked := fun (_ : bool) ps k => ld c (fun vs => hd [] vs) full_mem false ps k in
  let rejecting := fun (al : bool) ps k => if al then Stop SUB else unchecked al ps k in
  transform_reduce_on Z.add unchecked c pol_aligned 8 0 20 [] 0 = Ok 2190
  /\ transform_reduce_on Z.add (ld c (fun vs => hd [] vs) full_mem) c pol_aligned 8 0 20 [] 0 = Ok 2190
  /\ transform_reduce_on Z.add rejecting c pol_aligned 8 0 20 [] 0 = Stop SUB.
Proof. vm_compute. repeat split. Qed.

(** C10: the size check comes before any access (the memory is arbitrary, even empty). *)
Theorem C10_transform_reduce_mismatch_traps_first :
  forall (T A : Type) (tr : list (list T) -> list A) (op : A -> A -> A)
         c pol w first last srcs2 (m : mem T) init,
    p_match pol = true -> width_ok w -> range_ok first last ->
    ~ (exists n, last - first = n * w) ->
    transform_reduce c op tr m pol w first last srcs2 init = Stop STrap.
Proof. exact @transform_reduce_trap. Qed.
Print Assumptions C10_transform_reduce_mismatch_traps_first.

(** C10: the transform operation is only ever called with full-width chunks, since it need not be
    right for any other size. *)
Theorem C10_transform_reduce_matching_uniform_chunks :
  forall (T A : Type) (g : list T -> A) (tr : list (list T) -> list A) (op : A -> A -> A)
         c pol w first last srcs2 (m : mem T) vals init,
    target_ok c -> c_ce c = false -> policy_ok pol -> p_match pol = true -> width_ok w ->
    range_ok first last -> size_matches pol w first last ->
    transforms_at g tr (S (length srcs2)) w ->
    transformed_are g m (first :: srcs2) (last - first) vals ->
    exists x, transform_reduce c op tr m pol w first last srcs2 init = Ok x
              /\ gsum op (init :: vals) x.
Proof. exact @transform_reduce_match. Qed.
Print Assumptions C10_transform_reduce_matching_uniform_chunks.

(** C10: whatever the loads and the operation do, the modifier changes nothing if the size matches;
    also if [op] is not associative. *)
Theorem C10_transform_reduce_matching_same :
  forall (A : Type) (op : A -> A -> A) (ldf : bool -> list Z -> Z -> res (list A))
         c pol w first last srcs2 init,
    policy_ok pol -> width_ok w -> first <= last -> size_matches pol w first last ->
    transform_reduce_on op ldf c pol w first last srcs2 init
    = transform_reduce_on op ldf c (mkpol (p_aligned pol) (p_auto pol) false (p_unroll pol) (p_size pol))
                          w first last srcs2 init.
Proof. exact @transform_reduce_matching_same. Qed.
Print Assumptions C10_transform_reduce_matching_same.

Example C10_transform_reduce_same_instance :
  let c := ex_cfg 4 false false in
  let run pol n := transform_reduce_on Z.sub (ld c (fun vs => hd [] vs) full_mem) c pol 4 0 n [] 7 in
  run pol_match 12 = Ok 7 /\ run pol0 12 = Ok 7 /\ run pol_match 13 = Stop STrap /\ run pol0 13 = Ok 119.
Proof. vm_compute. repeat split. Qed.

Example C10_transform_reduce_instance :
  (let tr := fun ch => if (length (hd [] ch) =? 4)%nat then hd [] ch else [] in
   transform_reduce (ex_cfg 4 false false) Z.add tr (ex_mem 0 12) pol_match 4 0 12 [] 7 = Ok 1273)
  /\ transform_reduce (ex_cfg 4 false false) Z.add (hd []) (ex_mem 0 0) pol_match 4 0 13 [] 7 = Stop STrap.
Proof. split; vm_compute; reflexivity. Qed.
