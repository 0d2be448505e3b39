(** Property theorems C77: the algorithms agree with one another. *)
From Verif Require Import Base ExecModel ExecSpec ExecExamples TransformModel TransformSpec TransformExamples TReduceModel
  TReduceSpec ReduceSpec CountModel AlgebraSpec AlgebraProofs.
From Coq Require Import Permutation.

(** C77: for_each and transform in place.  The two calls need not agree in policy, width or target, and one may be
    evaluated at compile time. *)
Theorem C77_for_each_is_transform_in_place :
  forall (T St : Type) (f : St -> list (list T) -> St * list (list T)) (g : T -> T) op opv
         c pol w c' pol' w' first last m st,
    visit_ok c pol w first last -> visit_ok c' pol' w' first last ->
    lanewise g f -> lanewise_op op opv -> unary g op -> mapped m first last ->
    exists s m', run_for_each f c pol w true first last m st = Ok s
                 /\ run_transform opv c' pol' w' first last first [] m = Ok (m', last)
                 /\ forall a, s_mem s a = m' a.
Proof. exact @for_each_transform_agree. Qed.
Print Assumptions C77_for_each_is_transform_in_place.

(** C77: one after the other is the composition. *)
Theorem C77_for_each_fuse :
  forall (T St1 St2 St3 : Type) (f1 : St1 -> list (list T) -> St1 * list (list T))
         (f2 : St2 -> list (list T) -> St2 * list (list T)) (f3 : St3 -> list (list T) -> St3 * list (list T))
         (g1 g2 : T -> T) c1 pol1 w1 c2 pol2 w2 c3 pol3 w3 first last m st1 st2 st3,
    visit_ok c1 pol1 w1 first last -> visit_ok c2 pol2 w2 first last -> visit_ok c3 pol3 w3 first last ->
    lanewise g1 f1 -> lanewise g2 f2 -> lanewise (fun x => g2 (g1 x)) f3 -> mapped m first last ->
    exists s1 s2 s3, run_for_each f1 c1 pol1 w1 true first last m st1 = Ok s1
                     /\ run_for_each f2 c2 pol2 w2 true first last (s_mem s1) st2 = Ok s2
                     /\ run_for_each f3 c3 pol3 w3 true first last m st3 = Ok s3
                     /\ forall a, s_mem s2 a = s_mem s3 a.
Proof. exact @for_each_fuse. Qed.
Print Assumptions C77_for_each_fuse.

Theorem C77_transform_fuse :
  forall (T : Type) (op op' : list T -> T) opv opv' opv3 (g : T -> T)
         c1 pol1 w1 c2 pol2 w2 c3 pol3 w3 first last dst srcs2 (m : mem T),
    visit_ok c1 pol1 w1 dst (dst + (last - first)) -> visit_ok c2 pol2 w2 dst (dst + (last - first)) ->
    visit_ok c3 pol3 w3 dst (dst + (last - first)) ->
    lanewise_op op opv -> lanewise_op op' opv' -> unary g op' -> lanewise_op (fun args => g (op args)) opv3 ->
    Forall (fun p => mapped m p (p + (last - first))) (dst :: first :: srcs2) ->
    no_clobber dst (last - first) (first :: srcs2) ->
    exists m1 m2 m3, run_transform opv c1 pol1 w1 first last dst srcs2 m = Ok (m1, dst + (last - first))
      /\ run_transform opv' c2 pol2 w2 dst (dst + (last - first)) dst [] m1 = Ok (m2, dst + (last - first))
      /\ run_transform opv3 c3 pol3 w3 first last dst srcs2 m = Ok (m3, dst + (last - first))
      /\ forall a, m2 a = m3 a.
Proof. exact @transform_fuse. Qed.
Print Assumptions C77_transform_fuse.

(** C77: a range may be cut anywhere. *)
Theorem C77_for_each_split :
  forall (T St1 St2 St3 : Type) (f1 : St1 -> list (list T) -> St1 * list (list T))
         (f2 : St2 -> list (list T) -> St2 * list (list T)) (f3 : St3 -> list (list T) -> St3 * list (list T))
         (g : T -> T) c1 pol1 w1 c2 pol2 w2 c3 pol3 w3 first mid last m st1 st2 st3,
    visit_ok c1 pol1 w1 first mid -> visit_ok c2 pol2 w2 mid last -> visit_ok c3 pol3 w3 first last ->
    lanewise g f1 -> lanewise g f2 -> lanewise g f3 -> mapped m first last ->
    exists s1 s2 s3, run_for_each f1 c1 pol1 w1 true first mid m st1 = Ok s1
                     /\ run_for_each f2 c2 pol2 w2 true mid last (s_mem s1) st2 = Ok s2
                     /\ run_for_each f3 c3 pol3 w3 true first last m st3 = Ok s3
                     /\ forall a, s_mem s2 a = s_mem s3 a.
Proof. exact @for_each_split. Qed.
Print Assumptions C77_for_each_split.

Theorem C77_transform_reduce_split :
  forall (T A : Type) (g : list T -> A) tr (op : A -> A -> A)
         c1 pol1 w1 c2 pol2 w2 c3 pol3 w3 first mid last srcs2 (m : mem T) init,
    assoc_comm op -> reduce_ok c1 pol1 w1 first mid -> reduce_ok c2 pol2 w2 mid last ->
    reduce_ok c3 pol3 w3 first last ->
    (forall k, 0 < k -> transforms_at g tr (S (length srcs2)) k) ->
    Forall (fun p => mapped m p (p + (last - first))) (first :: srcs2) ->
    exists x y, transform_reduce c1 op tr m pol1 w1 first mid srcs2 init = Ok x
      /\ transform_reduce c2 op tr m pol2 w2 mid last (map (fun p => p + (mid - first)) srcs2) x = Ok y
      /\ transform_reduce c3 op tr m pol3 w3 first last srcs2 init = Ok y.
Proof. exact @transform_reduce_split. Qed.
Print Assumptions C77_transform_reduce_split.

Theorem C77_count_if_split :
  forall (T : Type) (p : T -> bool) pred c1 lib1 pol1 w1 c2 lib2 pol2 w2 c3 lib3 pol3 w3 first mid last (m : mem T),
    (forall l, pred l = map p l) ->
    visit_ok c1 pol1 w1 first mid -> visit_ok c2 pol2 w2 mid last -> visit_ok c3 pol3 w3 first last ->
    mapped m first last -> last - first <= int_max ->
    exists n n', count_if pred c1 lib1 pol1 w1 first mid m = Ok n /\ count_if pred c2 lib2 pol2 w2 mid last m = Ok n'
                 /\ count_if pred c3 lib3 pol3 w3 first last m = Ok (n + n').
Proof. exact @count_if_split. Qed.
Print Assumptions C77_count_if_split.

(** C77: transform_reduce is transform, then reduce; the order of the elements plays no role. *)
Theorem C77_transform_then_reduce :
  forall (T : Type) (g : list T -> T) opv tr (op : T -> T -> T)
         c1 pol1 w1 c2 pol2 w2 c3 pol3 w3 first last dst srcs2 (m : mem T) init,
    assoc_comm op -> visit_ok c1 pol1 w1 dst (dst + (last - first)) ->
    reduce_ok c2 pol2 w2 dst (dst + (last - first)) -> reduce_ok c3 pol3 w3 first last ->
    lanewise_op g opv -> (forall k, 0 < k -> transforms_at g tr (S (length srcs2)) k) ->
    Forall (fun p => mapped m p (p + (last - first))) (dst :: first :: srcs2) ->
    no_clobber dst (last - first) (first :: srcs2) ->
    exists m' x, run_transform opv c1 pol1 w1 first last dst srcs2 m = Ok (m', dst + (last - first))
      /\ reduce_alg c2 op m' pol2 w2 dst (dst + (last - first)) init = Ok x
      /\ transform_reduce c3 op tr m pol3 w3 first last srcs2 init = Ok x.
Proof. exact @transform_then_reduce. Qed.
Print Assumptions C77_transform_then_reduce.

Theorem C77_reduce_permuted :
  forall (T : Type) (op : T -> T -> T) c pol w first last (m : mem T) l c' pol' w' first' last' (m' : mem T) l' init,
    assoc_comm op -> reduce_ok c pol w first last -> reduce_ok c' pol' w' first' last' ->
    range_is m first last l -> range_is m' first' last' l' -> Permutation l l' ->
    exists x, reduce_alg c op m pol w first last init = Ok x /\ reduce_alg c' op m' pol' w' first' last' init = Ok x.
Proof. exact @reduce_permuted. Qed.
Print Assumptions C77_reduce_permuted.

(** C77: count_if is the sum of ones for the hits, as far as int goes; hits and misses together are the range. *)
Theorem C77_count_if_is_sum :
  forall (T : Type) (p : T -> bool) pred tr c lib pol w c' pol' w' first last (m : mem T),
    (forall l, pred l = map p l) -> visit_ok c pol w first last -> reduce_ok c' pol' w' first last ->
    (forall k, 0 < k -> transforms_at (hit p) tr 1 k) -> mapped m first last ->
    exists n, transform_reduce c' Z.add tr m pol' w' first last [] 0 = Ok n
              /\ (n <= int_max -> count_if pred c lib pol w first last m = Ok n)
              /\ (int_max < n -> count_if pred c lib pol w first last m = Stop SUB).
Proof. exact @count_if_is_sum. Qed.
Print Assumptions C77_count_if_is_sum.

Theorem C77_count_if_negated :
  forall (T : Type) (p : T -> bool) pred npred c lib pol w c' lib' pol' w' first last (m : mem T),
    (forall l, pred l = map p l) -> (forall l, npred l = map (fun x => negb (p x)) l) ->
    visit_ok c pol w first last -> visit_ok c' pol' w' first last -> mapped m first last -> last - first <= int_max ->
    exists n n', count_if pred c lib pol w first last m = Ok n /\ count_if npred c' lib' pol' w' first last m = Ok n'
                 /\ 0 <= n /\ 0 <= n' /\ n + n' = last - first.
Proof. exact @count_if_negated. Qed.
Print Assumptions C77_count_if_negated.

Example C77_case :
  visit_ok (ex_cfg 4 false false) pol_aligned 4 0 11 /\ visit_ok (ex_cfg 4 false true) (pol_unroll 3) 4 0 11
  /\ visit_ok (ex_cfg 4 false false) (pol_unroll 3) 4 0 5 /\ visit_ok (ex_cfg 4 false false) (pol_unroll 3) 4 5 11
  /\ reduce_ok (ex_cfg 4 false false) (pol_unroll 3) 4 0 11
  /\ lanewise (Z.mul 2) ex_f /\ lanewise_op (fun args => 2 * ex_sum args) (ex_lift (fun args => 2 * ex_sum args))
  /\ unary (Z.mul 2) (fun args => 2 * ex_sum args)
  /\ ex_obs 0 11 (run_for_each ex_f (ex_cfg 4 false false) pol_aligned 4 true 0 11 (ex_mem 0 11) 0)
     = Some ([[[100]]; [[101; 102]]; [[103; 104; 105; 106]]; [[107; 108; 109; 110]]], 4,
             Some [200; 202; 204; 206; 208; 210; 212; 214; 216; 218; 220])
  /\ ex_tobs 0 11 (run_transform (ex_lift (fun args => 2 * ex_sum args)) (ex_cfg 4 false true) (pol_unroll 3) 4
                                 0 11 0 [] (ex_mem 0 11))
     = Some (Some [200; 202; 204; 206; 208; 210; 212; 214; 216; 218; 220], 11)
  /\ reduce_alg (ex_cfg 4 false false) Z.add (ex_mem 0 11) (pol_unroll 3) 4 0 5 7 = Ok 517
  /\ reduce_alg (ex_cfg 4 false false) Z.add (ex_mem 0 11) (pol_unroll 3) 4 5 11 517 = Ok 1162
  /\ reduce_alg (ex_cfg 4 false true) Z.add (ex_mem 0 11) (pol_unroll 3) 4 0 11 7 = Ok 1162
  /\ count_if (map Z.even) (ex_cfg 4 false false) true pol_aligned 4 0 11 (ex_mem 0 11) = Ok 6
  /\ count_if (map (fun x => negb (Z.even x))) (ex_cfg 4 false true) true pol0 4 0 11 (ex_mem 0 11) = Ok 5
  /\ transform_reduce (ex_cfg 4 false false) Z.add (fun ch => map (fun x => if Z.even x then 1 else 0) (hd [] ch))
       (ex_mem 0 11) (pol_unroll 3) 4 0 11 [] 0 = Ok 6.
Proof.
  split; [exact alg_example_aligned|]. split; [apply alg_example_visit; split; lia|].
  split; [apply alg_example_visit; split; lia|]. split; [apply alg_example_visit; split; lia|].
  split; [apply alg_example_reduce; split; lia|]. split; [exact ex_f_lanewise|]. split; [apply ex_lift_lanewise|].
  split; [intros x; unfold ex_sum; cbn [fold_right]; lia|].
  repeat split; vm_compute; reflexivity.
Qed.
