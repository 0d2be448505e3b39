(** Property theorems C20 and C21. *)
From Verif Require Import Base LaneModel IntModel IntProofs ReduceModel ReduceSpec ReduceProofs ShapeModel
  HReduceModel HReduceProofs HReduceExact HReduceSpec HReduceNan.

(** C20.  reduce(v, op) is a generalised sum of the lanes, for every number of lanes. *)
Theorem C20_reduce :
  forall (T : Type) (op : T -> T -> T) v, v <> [] -> Z.of_nat (length v) < two64 ->
    exists x, reduce op v = Some x /\ gsum op v x.
Proof. exact @reduce_gsum. Qed.
Print Assumptions C20_reduce.

Theorem C20_reduce_is_fold :
  forall (T : Type) (op : T -> T -> T) x l, assoc_comm op -> Z.of_nat (length (x :: l)) < two64 ->
    reduce op (x :: l) = Some (fold_left op l x).
Proof. exact @reduce_fold. Qed.
Print Assumptions C20_reduce_is_fold.

(** reduce(where(k, v), identity, op): the identity element folded with the selected lanes in order. *)
Theorem C20_masked_reduce :
  forall (T : Type) (op : T -> T -> res T) k v e, length k = length v ->
    masked_reduce op k v e = foldR op (selected_lanes k v) e.
Proof. exact @masked_reduce_fold. Qed.
Print Assumptions C20_masked_reduce.

Theorem C20_selected_lanes :
  forall (T : Type) (k : list bool) (v : list T) a, In a (selected_lanes k v) <->
    exists i, nth_error k i = Some true /\ nth_error v i = Some a.
Proof. exact @selected_lanes_spec. Qed.
Print Assumptions C20_selected_lanes.

Theorem C20_masked_reduce_none :
  forall (T : Type) (op : T -> T -> res T) k v e, length k = length v -> ~ In true k ->
    masked_reduce op k v e = Ok e.
Proof. exact @masked_reduce_none. Qed.
Print Assumptions C20_masked_reduce_none.

(** The overloads with an implied identity element, for every integer type: the fold of the
    selected lanes alone. *)
Theorem C20_default_identity :
  forall l t o k v, lang_ok l -> 2 <= bits t -> In o [Add; Mul; And; Or; Xor] -> length k = length v -> all_in t v ->
    masked_reduce_default l t o k v =
    match selected_lanes k v with
    | [] => Ok (match o with Mul => 1 | And => if sgn t then -1 else 2 ^ bits t - 1 | _ => 0 end)
    | x :: xs => foldR (assign_bin l t o) xs x
    end.
Proof. exact masked_reduce_default_fold. Qed.
Print Assumptions C20_default_identity.

Example C20_example :
  reduce Z.add [1; 2; 3; 4; 5; 6; 7] = Some 28 /\ reduce Z.sub [1; 2; 3; 4; 5] = Some (-5)
  /\ masked_reduce (assign_bin lp64 u16 Sub) [true; false; true; true] [1; 2; 3; 4] 10 = Ok 2
  /\ masked_reduce (assign_bin lp64 u16 Sub) [false; false] [1; 2] 10 = Ok 10
  /\ masked_reduce_default lp64 u16 And [true; false; true] [7; 0; 13] = Ok 5
  /\ masked_reduce_default lp64 u16 And [false; false; false] [7; 0; 13] = Ok 65535
  /\ masked_reduce_default lp64 u16 Mul [true; true; false] [7; 6; 13] = Ok 42.
Proof. vm_compute. repeat split. Qed.

(** C21.  hmin(v) and hmax(v). *)
Theorem C21_hmin :
  forall (T : Type) (lt : T -> T -> bool) P v, order_on lt P -> (forall a, In a v -> P a) ->
    v <> [] -> Z.of_nat (length v) < two64 -> exists r, hmin lt v = Some r /\ is_min lt v r.
Proof. exact @hmin_is_min. Qed.
Print Assumptions C21_hmin.

Theorem C21_hmax :
  forall (T : Type) (lt : T -> T -> bool) P v, order_on lt P -> (forall a, In a v -> P a) ->
    v <> [] -> Z.of_nat (length v) < two64 -> exists r, hmax lt v = Some r /\ is_max lt v r.
Proof. exact @hmax_is_max. Qed.
Print Assumptions C21_hmax.

(** The integers and the floating-point values other than NaN are ordered in this sense. *)
Theorem C21_orders : order_on Z.ltb (fun _ => True) /\ order_on flt (fun a => a <> FNaN).
Proof. exact (conj int_order float_order). Qed.
Print Assumptions C21_orders.

(** Every floating-point content: the result is NaN iff lane 0 is.  Otherwise it is the minimum (maximum) of the lanes
    that matter, which a NaN in other lanes than their own can prevent: a smaller lane can be missed. *)
Theorem C21_hmin_nan :
  forall v, v <> [] -> Z.of_nat (length v) < two64 ->
    exists r, hmin flt v = Some r
      /\ (r = FNaN <-> nth_error v 0 = Some FNaN)
      /\ (r <> FNaN -> (exists j, considered v j /\ nth_error v j = Some r)
                       /\ forall j a, considered v j -> nth_error v j = Some a -> flt a r = false).
Proof. exact hmin_float. Qed.
Print Assumptions C21_hmin_nan.

Theorem C21_hmax_nan :
  forall v, v <> [] -> Z.of_nat (length v) < two64 ->
    exists r, hmax flt v = Some r
      /\ (r = FNaN <-> nth_error v 0 = Some FNaN)
      /\ (r <> FNaN -> (exists j, considered v j /\ nth_error v j = Some r)
                       /\ forall j a, considered v j -> nth_error v j = Some a -> flt r a = false).
Proof. exact hmax_float. Qed.
Print Assumptions C21_hmax_nan.

(** With 2^k lanes: lane j matters iff neither it nor one of the lanes j mod 1, j mod 2, ..., j mod 2^(k-1) is NaN. *)
Theorem C21_considered :
  forall v k, length v = (2 ^ k)%nat -> forall j, considered v j <->
    (exists a, nth_error v j = Some a /\ a <> FNaN)
    /\ forall s, (s < k)%nat -> nth_error v (j mod 2 ^ s)%nat <> Some FNaN.
Proof. exact considered_pow. Qed.
Print Assumptions C21_considered.

Theorem C21_hmin_nan_refuted : exists v r, ~ In FNaN (firstn 1 v) /\ hmin flt v = Some r /\ ~ is_min flt v r.
Proof. exact hmin_nan_refuted. Qed.
Print Assumptions C21_hmin_nan_refuted.

Theorem C21_hmax_nan_refuted : exists v r, ~ In FNaN (firstn 1 v) /\ hmax flt v = Some r /\ ~ is_max flt v r.
Proof. exact hmax_nan_refuted. Qed.
Print Assumptions C21_hmax_nan_refuted.

Example C21_nan_lanes :
  hmin flt [FFin 1; FNaN; FFin 2; FFin 0] = Some (FFin 1) /\ hmin flt [FFin 1; FFin 0; FNaN; FFin 2] = Some (FFin 0)
  /\ hmin flt [FNaN; FFin 0; FFin 3; FFin 2] = Some FNaN
  /\ hmax flt [FFin 1; FFin 0; FFin 0; FFin 0; FNaN; FFin 5] = Some (FFin 1)
  /\ hmax flt [FFin 1; FFin 0; FFin 0; FFin 0; FFin 5; FNaN] = Some (FFin 5).
Proof. vm_compute. repeat split. Qed.

(** hmin(where(k, v)), hmax(where(k, v)) as compiled by GCC and Clang: integers. *)
Theorem C21_hmin_where_int :
  forall t k v, length k = length v -> all_in t v -> In true k ->
    exists r, hmin_where Z.ltb true (int_limits t) k v = Ok r /\ is_min Z.ltb (selected_lanes k v) r.
Proof. exact hmin_where_int. Qed.
Print Assumptions C21_hmin_where_int.

Theorem C21_hmax_where_int :
  forall t k v, length k = length v -> all_in t v -> In true k ->
    exists r, hmax_where Z.ltb true (int_limits t) k v = Ok r /\ is_max Z.ltb (selected_lanes k v) r.
Proof. exact hmax_where_int. Qed.
Print Assumptions C21_hmax_where_int.

(** Floating point: proved if some selected lane is not infinite in the wrong direction (missing: all
    selected lanes +inf for hmin, -inf for hmax, refuted below). *)
Theorem C21_hmin_where_float_partial :
  forall q k v, length k = length v -> 0 <= q ->
    (forall a, In a v -> a <> FNaN /\ in_format q a) -> (exists a, In a (selected_lanes k v) /\ a <> FPosInf) ->
    exists r, hmin_where flt true (float_limits q) k v = Ok r /\ is_min flt (selected_lanes k v) r.
Proof. exact hmin_where_float_partial. Qed.
Print Assumptions C21_hmin_where_float_partial.

Theorem C21_hmax_where_float_partial :
  forall q k v, length k = length v -> 0 <= q ->
    (forall a, In a v -> a <> FNaN /\ in_format q a) -> (exists a, In a (selected_lanes k v) /\ a <> FNegInf) ->
    exists r, hmax_where flt true (float_limits q) k v = Ok r /\ is_max flt (selected_lanes k v) r.
Proof. exact hmax_where_float_partial. Qed.
Print Assumptions C21_hmax_where_float_partial.

Theorem C21_hmin_where_float_refuted :
  forall q, 0 <= q -> exists k v r, length k = length v /\ In true k
    /\ (forall a, In a v -> a <> FNaN /\ in_format q a)
    /\ hmin_where flt true (float_limits q) k v = Ok r /\ ~ In r (selected_lanes k v).
Proof. exact hmin_where_float_refuted. Qed.
Print Assumptions C21_hmin_where_float_refuted.

Theorem C21_hmax_where_float_refuted :
  forall q, 0 <= q -> exists k v r, length k = length v /\ In true k
    /\ (forall a, In a v -> a <> FNaN /\ in_format q a)
    /\ hmax_where flt true (float_limits q) k v = Ok r /\ ~ In r (selected_lanes k v).
Proof. exact hmax_where_float_refuted. Qed.
Print Assumptions C21_hmax_where_float_refuted.

(** Every content, NaN included: the result is never NaN, it is the minimum (maximum) of the selected lanes
    iff one of them is neither NaN nor infinite in the wrong direction, and max() (lowest()) otherwise. *)
Theorem C21_hmin_where_float_iff :
  forall q k v, length k = length v -> 0 <= q -> (forall a, In a v -> in_format q a) ->
    exists r, hmin_where flt true (float_limits q) k v = Ok r /\ r <> FNaN
      /\ (is_min flt (selected_lanes k v) r <-> exists a, In a (selected_lanes k v) /\ a <> FNaN /\ a <> FPosInf)
      /\ (~ is_min flt (selected_lanes k v) r -> r = FFin q).
Proof. exact hmin_where_float_iff. Qed.
Print Assumptions C21_hmin_where_float_iff.

Theorem C21_hmax_where_float_iff :
  forall q k v, length k = length v -> 0 <= q -> (forall a, In a v -> in_format q a) ->
    exists r, hmax_where flt true (float_limits q) k v = Ok r /\ r <> FNaN
      /\ (is_max flt (selected_lanes k v) r <-> exists a, In a (selected_lanes k v) /\ a <> FNaN /\ a <> FNegInf)
      /\ (~ is_max flt (selected_lanes k v) r -> r = FFin (- q)).
Proof. exact hmax_where_float_iff. Qed.
Print Assumptions C21_hmax_where_float_iff.

Example C21_nan_example :
  hmin_where flt true (float_limits 100) [true; true; true] [FNaN; FFin 7; FPosInf] = Ok (FFin 7)
  /\ hmin_where flt true (float_limits 100) [true; false; true] [FNaN; FFin 7; FPosInf] = Ok (FFin 100)
  /\ hmin flt [FNaN; FFin 1] = Some FNaN /\ hmin flt [FFin 1; FNaN] = Some (FFin 1).
Proof. vm_compute. repeat split. Qed.

(** The other branch of the preprocessor: right for floating point, wrong for integers. *)
Theorem C21_hmin_where_infinity :
  forall q k v, length k = length v -> (forall a, In a v -> a <> FNaN) -> In true k ->
    exists r, hmin_where flt false (float_limits q) k v = Ok r /\ is_min flt (selected_lanes k v) r.
Proof. exact hmin_where_infinity. Qed.
Print Assumptions C21_hmin_where_infinity.

Theorem C21_hmax_where_infinity :
  forall q k v, length k = length v -> (forall a, In a v -> a <> FNaN) -> In true k ->
    exists r, hmax_where flt false (float_limits q) k v = Ok r /\ is_max flt (selected_lanes k v) r.
Proof. exact hmax_where_infinity. Qed.
Print Assumptions C21_hmax_where_infinity.

Theorem C21_hmin_where_int_infinity_refuted :
  exists t k v r, all_in t v /\ In true k /\ length k = length v
    /\ hmin_where Z.ltb false (int_limits t) k v = Ok r /\ ~ In r (selected_lanes k v).
Proof. exact hmin_where_int_infinity_refuted. Qed.
Print Assumptions C21_hmin_where_int_infinity_refuted.

Example C21_example :
  hmin Z.ltb [5; 3; 8; 3; 9] = Some 3 /\ hmax Z.ltb [5; 3; 8; 3; 9] = Some 9
  /\ hmin_where Z.ltb true (int_limits u16) [true; false; true] [5; 3; 8] = Ok 5
  /\ hmax_where Z.ltb true (int_limits (mkity 16 true)) [true; false; true] [-5; 3; -8] = Ok (-5)
  /\ hmin_where flt true (float_limits 100) [true; true; false] [FPosInf; FFin 7; FNegInf] = Ok (FFin 7)
  /\ hmin_where flt true (float_limits 100) [true; false; false] [FPosInf; FFin 7; FNegInf] = Ok (FFin 100).
Proof. vm_compute. repeat split. Qed.
