(** Property theorems C65: iterator arithmetic in the algorithms. *)
From Verif Require Import Base ExecModel ExecSpec ExecExamples TransformModel TReduceModel TReduceSpec
  PtrModel PtrSpec PtrProofs PtrReduceProofs PtrReadProofs PtrCoverProofs PtrExamples
  ScheduleSpec PtrAutoProofs.

(** For a range that is the whole array: for_each leaves it unless there are at least size (times
    the unroll factor) elements. *)
Theorem C65_for_each_whole_iff :
  forall c pol w first last,
    target_ok c -> c_ce c = false -> policy_ok pol -> width_ok w -> range_ok first last ->
    size_matches pol w first last -> reaches_alignment c pol w first last -> first < last ->
    exists its, for_each_it c pol w first last = (its, Ok tt) /\
      (stays_in first last 0 its <-> w * Z.max 1 (p_unroll pol) <= last - first).
Proof. exact for_each_whole. Qed.
Print Assumptions C65_for_each_whole_iff.

(** For a range within an array at lo..hi. *)
Theorem C65_for_each_iff :
  forall c pol w first last lo hi,
    target_ok c -> c_ce c = false -> policy_ok pol -> width_ok w -> range_ok first last ->
    size_matches pol w first last -> reaches_alignment c pol w first last ->
    lo <= first -> first < last -> last <= hi ->
    exists its, for_each_it c pol w first last = (its, Ok tt) /\
      (stays_in lo hi 0 its <->
       lo <= last - w /\ (1 < p_unroll pol -> lo <= last - w * p_unroll pol)).
Proof. exact for_each_stays. Qed.
Print Assumptions C65_for_each_iff.

Theorem C65_refuted :
  exists c pol w first last its,
    target_ok c /\ c_ce c = false /\ policy_ok pol /\ width_ok w /\ range_ok first last
    /\ size_matches pol w first last /\ reaches_alignment c pol w first last /\ first < last
    /\ for_each_it c pol w first last = (its, Ok tt) /\ In (first - 1) (iterators 0 its)
    /\ ~ stays_in first last 0 its.
Proof. exact for_each_short. Qed.
Print Assumptions C65_refuted.

(** In constant evaluation [first + (size - 1)] is past the end unless size-1 elements are left over. *)
Theorem C65_for_each_consteval_whole_iff :
  forall c pol w first last,
    c_ce c = true -> width_ok w -> size_matches pol w first last -> first < last ->
    exists its, for_each_it c pol w first last = (its, Ok tt) /\
      (stays_in first last 0 its <-> (last - first) mod w = w - 1).
Proof. exact for_each_whole_ce. Qed.
Print Assumptions C65_for_each_consteval_whole_iff.

Theorem C65_for_each_consteval_iff :
  forall c pol w first last lo hi,
    c_ce c = true -> width_ok w -> size_matches pol w first last ->
    lo <= first -> first < last -> last <= hi ->
    exists its, for_each_it c pol w first last = (its, Ok tt) /\
      (stays_in lo hi 0 its <-> last - (last - first) mod w + (w - 1) <= hi).
Proof. exact for_each_stays_ce. Qed.
Print Assumptions C65_for_each_consteval_iff.

Theorem C65_consteval_refuted :
  exists c pol w first last its,
    target_ok c /\ c_ce c = true /\ width_ok w /\ size_matches pol w first last /\ first < last
    /\ for_each_it c pol w first last = (its, Ok tt) /\ In (last + 3) (iterators 0 its)
    /\ ~ stays_in first last 0 its.
Proof. exact for_each_ce_past. Qed.
Print Assumptions C65_consteval_refuted.

(** transform: range 0 is the first input, 1 the output, the others the further inputs. Only the
    first input is left. *)
Theorem C65_transform_iff :
  forall c pol w first last dst srcs2,
    target_ok c -> c_ce c = false -> policy_ok pol -> width_ok w -> range_ok first last ->
    size_matches pol w first last -> reaches_alignment c pol w dst (dst + (last - first)) ->
    first < last ->
    exists its, transform_it c pol w first last dst srcs2 = (its, Ok (dst + (last - first))) /\
      forall lo hi j p, nth_error (first :: dst :: srcs2) j = Some p ->
        lo <= p -> p + (last - first) <= hi ->
        stays_in lo hi j its <->
        (j = 0%nat -> lo <= last - w /\ (1 < p_unroll pol -> lo <= last - w * p_unroll pol)).
Proof. exact transform_stays. Qed.
Print Assumptions C65_transform_iff.

Theorem C65_transform_consteval_iff :
  forall c pol w first last dst srcs2,
    c_ce c = true -> width_ok w -> size_matches pol w first last -> first < last ->
    exists its, transform_it c pol w first last dst srcs2 = (its, Ok (dst + (last - first))) /\
      forall lo hi j p, nth_error (first :: dst :: srcs2) j = Some p ->
        lo <= p -> p + (last - first) <= hi ->
        stays_in lo hi j its <-> (j = 0%nat -> last - (last - first) mod w + (w - 1) <= hi).
Proof. exact transform_stays_ce. Qed.
Print Assumptions C65_transform_consteval_iff.

Theorem C65_transform_others :
  forall c pol w first last dst srcs2 j p,
    target_ok c -> c_ce c = false -> policy_ok pol -> width_ok w -> range_ok first last ->
    size_matches pol w first last -> reaches_alignment c pol w dst (dst + (last - first)) ->
    first < last -> nth_error (dst :: srcs2) j = Some p ->
    exists its, transform_it c pol w first last dst srcs2 = (its, Ok (dst + (last - first)))
                /\ stays_in p (p + (last - first)) (S j) its.
Proof. exact transform_others. Qed.
Print Assumptions C65_transform_others.

(** transform_reduce without prologue. *)
Theorem C65_reduce_whole_iff :
  forall c pol w first last srcs2,
    target_ok c -> c_ce c = false -> plain pol -> policy_ok pol -> width_ok w -> range_ok first last ->
    size_matches pol w first last -> first < last ->
    exists its, transform_reduce_it c pol w first last srcs2 = (its, Ok tt) /\
      (stays_in first last 0 its <-> w * Z.max 1 (p_unroll pol) <= last - first).
Proof. exact reduce_whole_plain. Qed.
Print Assumptions C65_reduce_whole_iff.

Theorem C65_reduce_iff :
  forall c pol w first last srcs2 lo hi,
    target_ok c -> c_ce c = false -> plain pol -> policy_ok pol -> width_ok w -> range_ok first last ->
    size_matches pol w first last -> lo <= first -> first < last -> last <= hi ->
    exists its, transform_reduce_it c pol w first last srcs2 = (its, Ok tt) /\
      (stays_in lo hi 0 its <->
       lo <= last - w /\
       (first + w <= last -> 1 < p_unroll pol ->
        lo <= last - w * p_unroll pol /\ first + w * p_unroll pol <= hi)).
Proof. exact reduce_stays_plain. Qed.
Print Assumptions C65_reduce_iff.

(** With prefer_aligned the main part begins at the first aligned position [a]. *)
Theorem C65_reduce_aligned_iff :
  forall c pol w first last srcs2 a lo hi,
    target_ok c -> c_ce c = false -> policy_ok pol -> width_ok w -> range_ok first last ->
    p_aligned pol = true -> 1 < w -> (exists e, 0 <= e /\ w * c_sz c = 2 ^ e) ->
    address c 0 mod c_sz c = 0 -> (forall k, 0 < k -> c_malign c k = bit_ceil (k * c_sz c)) ->
    first <= a < last -> is_aligned c a w -> (forall b, first <= b -> is_aligned c b w -> a <= b) ->
    lo <= first -> last <= hi ->
    exists its, transform_reduce_it c pol w first last srcs2 = (its, Ok tt) /\
      (stays_in lo hi 0 its <->
       lo <= last - w /\
       (a + w <= last -> 1 < p_unroll pol ->
        lo <= last - w * p_unroll pol /\ a + w * p_unroll pol <= hi)).
Proof. exact reduce_stays_aligned. Qed.
Print Assumptions C65_reduce_aligned_iff.

(** With any policy: [d] elements are in front of the main part (C66), which is not empty. *)
Theorem C65_reduce_any_iff :
  forall c pol w first last srcs2 d lo hi,
    target_ok c -> c_ce c = false -> policy_ok pol -> width_ok w -> range_ok first last ->
    size_matches pol w first last -> prologue_length c pol w first (last - first) d -> d < last - first ->
    lo <= first -> last <= hi ->
    exists its, transform_reduce_it c pol w first last srcs2 = (its, Ok tt) /\
      (stays_in lo hi 0 its <->
       lo <= last - w /\
       (first + d + w <= last -> 1 < p_unroll pol ->
        lo <= last - w * p_unroll pol /\ first + d + w * p_unroll pol <= hi)).
Proof. exact reduce_stays_any. Qed.
Print Assumptions C65_reduce_any_iff.

(** auto_prologue and unroll_by<2> with 13 elements: five in front, and iterators at -3 and 21. *)
Example C65_reduce_auto_case :
  prologue_length (ex_cfg 12 false false) (mkpol false true false 2 0) 8 0 13 5 /\
  iterators 0 (fst (transform_reduce_it (ex_cfg 12 false false) (mkpol false true false 2 0) 8 0 13 []))
  = [0; 1; 5; 5; -3; 21; 5; 13].
Proof. split; [exact auto_five|vm_compute; reflexivity]. Qed.

Theorem C65_reduce_others :
  forall c pol w first last srcs2 d j p,
    target_ok c -> c_ce c = false -> policy_ok pol -> width_ok w -> range_ok first last ->
    size_matches pol w first last -> prologue_length c pol w first (last - first) d -> d < last - first ->
    nth_error srcs2 j = Some p ->
    exists its, transform_reduce_it c pol w first last srcs2 = (its, Ok tt)
                /\ stays_in p (p + (last - first)) (S j) its.
Proof. exact reduce_others_any. Qed.
Print Assumptions C65_reduce_others.

(** In constant evaluation transform_reduce never leaves a range. *)
Theorem C65_reduce_consteval :
  forall c pol w first last srcs2,
    c_ce c = true -> width_ok w -> size_matches pol w first last -> first < last ->
    exists its, transform_reduce_it c pol w first last srcs2 = (its, Ok tt) /\
      forall j p, nth_error (first :: srcs2) j = Some p -> stays_in p (p + (last - first)) j its.
Proof. exact transform_reduce_stays_ce. Qed.
Print Assumptions C65_reduce_consteval.

Theorem C65_reduce_refuted :
  exists c pol w first last its,
    target_ok c /\ c_ce c = false /\ policy_ok pol /\ width_ok w /\ range_ok first last
    /\ size_matches pol w first last /\ prologue_room c pol w first last /\ first < last
    /\ transform_reduce_it c pol w first last [] = (its, Ok tt)
    /\ In (first - 7) (iterators 0 its) /\ In (last + 7) (iterators 0 its).
Proof. exact reduce_unrolled_past. Qed.
Print Assumptions C65_reduce_refuted.

(** The recorded iterators are those of the algorithms of C01, C06 and C08: all chunks that are
    loaded and stored are among them. *)
Theorem C65_for_each_recorded :
  forall c pol w first last k i,
    In k (fst (for_each c pol w first last)) -> (i <= k_n k)%nat ->
    In (Moved [k_pos k + k_k k * Z.of_nat i]) (fst (for_each_it c pol w first last)).
Proof. exact for_each_covered. Qed.
Print Assumptions C65_for_each_recorded.

Theorem C65_transform_recorded :
  forall c pol w first last dst srcs2 s f r i,
    In s (fst (transform c pol w first last dst srcs2)) -> t_srcs s = f :: r -> (i <= t_n s)%nat ->
    In (Moved (adv (t_k s * Z.of_nat i) (f :: t_dst s :: r)))
       (fst (transform_it c pol w first last dst srcs2)).
Proof. exact transform_covered. Qed.
Print Assumptions C65_transform_recorded.

(** transform_reduce loads from no other place. *)
Theorem C65_reduce_recorded :
  forall (A : Type) (op : A -> A -> A) (ld1 ld2 : bool -> list Z -> Z -> res (list A))
         c pol w first last srcs2 init,
    (forall al ps k, In (Moved ps) (fst (transform_reduce_it c pol w first last srcs2)) ->
                     ld1 al ps k = ld2 al ps k) ->
    transform_reduce_on op ld1 c pol w first last srcs2 init
    = transform_reduce_on op ld2 c pol w first last srcs2 init.
Proof. exact @transform_reduce_same. Qed.
Print Assumptions C65_reduce_recorded.

(** Eleven elements, vectors of four: one before the next chunk is as far as it gets. *)
Example C65_for_each_in :
  fst (for_each_it (ex_cfg 16 false false) pol0 4 0 11)
  = [Compared 7; Moved [0]; Moved [4]; Moved [4]; Moved [8]; Moved [8]; Moved [10]; Moved [10]; Moved [11] ].
Proof. vm_compute. reflexivity. Qed.

(** In a constant expression eleven elements (11 mod 4 = 3) are fine, too. *)
Example C65_for_each_consteval_in :
  iterators 0 (fst (for_each_it (ex_cfg 16 false true) pol0 4 0 11))
  = [3; 0; 4; 7; 4; 8; 11; 8; 10; 10; 11].
Proof. vm_compute. reflexivity. Qed.

Example C65_transform_in :
  iterators 2 (fst (transform_it (ex_cfg 16 false false) pol0 4 0 6 100 [200])) =
  [200; 204; 204; 206].
Proof. vm_compute. reflexivity. Qed.

Example C65_reduce_in :
  iterators 1 (fst (transform_reduce_it (ex_cfg 16 false false) (pol_unroll 2) 4 0 9 [200])) =
  [200; 204; 204; 208; 208].
Proof. vm_compute. reflexivity. Qed.
