(** Property theorems C76: the algorithms on the simd type of this library. *)
From Verif Require Import Base ExecModel ExecSpec ExecExamples TransformModel TransformSpec TReduceModel TReduceSpec ReduceSpec
  CountModel TraitModel OwnSpec OwnProofs.

(** C76: neither prefer_aligned nor auto_prologue nor the address changes anything: the same arguments, the same
    memory, the same result, the same undefined behaviour, at run time and in constant evaluation. *)
Theorem C76_for_each_same :
  forall (T St : Type) (f : St -> list (list T) -> St * list (list T)) c c' pol pol' w wb first last m st,
    own_simd c -> own_simd c' -> same_elsewhere c c' -> same_otherwise pol pol' ->
    run_for_each f c pol w wb first last m st = run_for_each f c' pol' w wb first last m st.
Proof. exact @run_for_each_same. Qed.
Print Assumptions C76_for_each_same.

Theorem C76_count_if_same :
  forall (T : Type) (pred : list T -> list bool) c c' lib pol pol' w first last m,
    own_simd c -> own_simd c' -> same_elsewhere c c' -> same_otherwise pol pol' ->
    count_if pred c lib pol w first last m = count_if pred c' lib pol' w first last m.
Proof. exact @count_if_same. Qed.
Print Assumptions C76_count_if_same.

Theorem C76_transform_same :
  forall (T : Type) (op : list (list T) -> list T) c c' pol pol' w first last dst srcs (m : mem T),
    own_simd c -> own_simd c' -> same_elsewhere c c' -> same_otherwise pol pol' ->
    run_transform op c pol w first last dst srcs m = run_transform op c' pol' w first last dst srcs m.
Proof. exact @run_transform_same. Qed.
Print Assumptions C76_transform_same.

Theorem C76_transform_reduce_same :
  forall (T A : Type) (op : A -> A -> A) (tr : list (list T) -> list A) c c' (m : mem T) pol pol' w first last srcs init,
    own_simd c -> own_simd c' -> same_elsewhere c c' -> same_otherwise pol pol' ->
    transform_reduce c op tr m pol w first last srcs init = transform_reduce c' op tr m pol' w first last srcs init.
Proof. exact @transform_reduce_same. Qed.
Print Assumptions C76_transform_reduce_same.

(** C76: with this type the claims of C01, C03, C06, C08 and C09 hold for every policy and every address. *)
Theorem C76_for_each_inside :
  forall (T St : Type) (f : St -> list (list T) -> St * list (list T)) c pol w wb first last m st,
    own_simd c -> c_ce c = false -> width_ok w -> range_ok first last -> size_matches pol w first last ->
    keeps_lanes f -> mapped m first last ->
    exists s, run_for_each f c pol w wb first last m st = Ok s
              /\ range_is m first last (seen (s_trace s)) /\ s_st s = state_after f st (s_trace s)
              /\ forall a, ~ (first <= a < last) -> s_mem s a = m a.
Proof. exact @own_for_each. Qed.
Print Assumptions C76_for_each_inside.

Theorem C76_transform_inside :
  forall (T : Type) (op : list T -> T) (opv : list (list T) -> list T) c pol w first last dst srcs2 (m : mem T),
    own_simd c -> c_ce c = false -> width_ok w -> range_ok first last -> size_matches pol w first last ->
    lanewise_op op opv ->
    Forall (fun p => mapped m p (p + (last - first))) (dst :: first :: srcs2) ->
    no_clobber dst (last - first) (first :: srcs2) ->
    exists m', run_transform opv c pol w first last dst srcs2 m = Ok (m', dst + (last - first))
               /\ transformed op (first :: srcs2) dst (last - first) m m'.
Proof. exact @own_transform. Qed.
Print Assumptions C76_transform_inside.

Theorem C76_transform_reduce_inside :
  forall (T A : Type) (g : list T -> A) (tr : list (list T) -> list A) (op : A -> A -> A)
         c pol w first last srcs2 (m : mem T) vals init,
    own_simd c -> c_ce c = false -> width_ok w -> range_ok first last -> size_matches pol w first last ->
    (forall k, 0 < k -> transforms_at g tr (S (length srcs2)) k) ->
    transformed_are g m (first :: srcs2) (last - first) vals ->
    exists x, transform_reduce c op tr m pol w first last srcs2 init = Ok x /\ gsum op (init :: vals) x.
Proof. exact @own_transform_reduce. Qed.
Print Assumptions C76_transform_reduce_inside.

Theorem C76_count_if_inside :
  forall (T : Type) (p : T -> bool) (pred : list T -> list bool) c lib pol w first last (m : mem T) l,
    (forall x, pred x = map p x) ->
    own_simd c -> c_ce c = false -> width_ok w -> range_ok first last -> size_matches pol w first last ->
    range_is m first last l ->
    count_if pred c lib pol w first last m
    = (if Z.of_nat (length (filter p l)) <=? int_max then Ok (Z.of_nat (length (filter p l))) else Stop SUB).
Proof. exact @own_count_if. Qed.
Print Assumptions C76_count_if_inside.

(** Two misaligned elements with prefer_aligned: both are visited, nothing else; the ranges of
    C03_prefer_aligned_refuted and C08_prologue_consumes_range_refuted are harmless. *)
Example C76_case :
  ex_obs 0 2 (run_for_each ex_f (mkcfg 4 12 (fun _ => 4) false false) pol_aligned 8 true 0 2 (ex_mem 0 2) 0)
  = Some ([[[100; 101]]], 1, Some [200; 202])
  /\ transform_reduce (mkcfg 4 12 (fun _ => 4) false false) Z.add (fun ch => hd [] ch) (ex_mem 0 5) pol_auto 8 0 5 [] 0 = Ok 510
  /\ own_simd (mkcfg 4 12 (fun _ => 4) false false) /\ same_otherwise pol_aligned pol0
  /\ same_elsewhere (mkcfg 4 12 (fun _ => 4) false false) (mkcfg 4 13 (fun _ => 4) false false).
Proof.
  split; [vm_compute; reflexivity|]. split; [vm_compute; reflexivity|]. split; [exact own_example|]. repeat split.
Qed.
