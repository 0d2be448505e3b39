(** Property theorems C15, C16 and C17 (loads, stores, where-expressions). *)
From Verif Require Import Base LaneModel MaskModel WhereModel WhereProofs IntModel.

(** C15.  copy_to writes every lane to its element and changes no other element; it is defined
    exactly if all size() elements exist (and the conversion to the memory type is defined). *)
Theorem C15_copy_to :
  forall (A U : Type) (to_mem : A -> res U) v m p,
    (forall i a, nth_error v i = Some a -> (exists u, to_mem a = Ok u) /\ m (p + Z.of_nat i) <> None) ->
    exists m', copy_to to_mem v m p = Ok m'
      /\ (forall i a u, nth_error v i = Some a -> to_mem a = Ok u -> m' (p + Z.of_nat i) = Some u)
      /\ (forall q, ~ (p <= q < p + Z.of_nat (length v)) -> m' q = m q).
Proof. exact @copy_to_writes. Qed.
Print Assumptions C15_copy_to.

Theorem C15_copy_to_defined_only_if :
  forall (A U : Type) (to_mem : A -> res U) v m p m', copy_to to_mem v m p = Ok m' ->
    forall i a, nth_error v i = Some a -> (exists u, to_mem a = Ok u) /\ m (p + Z.of_nat i) <> None.
Proof. exact @copy_to_needs. Qed.
Print Assumptions C15_copy_to_defined_only_if.

(** copy_from gives lane i the converted element i; it reads all of them and no other element. *)
Theorem C15_copy_from :
  forall (A U : Type) (from_mem : U -> res A) v m p r, copy_from from_mem v m p = Ok r <->
    length r = length v /\ forall i, (i < length v)%nat ->
      exists u a, m (p + Z.of_nat i) = Some u /\ from_mem u = Ok a /\ nth_error r i = Some a.
Proof. exact @copy_from_reads. Qed.
Print Assumptions C15_copy_from.

Theorem C15_copy_from_frame :
  forall (A U : Type) (from_mem : U -> res A) v m m' p,
    (forall q, p <= q < p + Z.of_nat (length v) -> m' q = m q) ->
    copy_from from_mem v m' p = copy_from from_mem v m p.
Proof. exact @copy_from_frame. Qed.
Print Assumptions C15_copy_from_frame.

Theorem C15_load_constructor :
  forall (A U : Type) (from_mem : U -> res A) v m p,
    load_ctor from_mem m p (length v) = copy_from from_mem v m p.
Proof. exact @load_ctor_is_copy_from. Qed.
Print Assumptions C15_load_constructor.

(** Round trip. *)
Theorem C15_round_trip :
  forall (A U : Type) (from_mem : U -> res A) (to_mem : A -> res U) v w m p m',
    (forall a u, In a v -> to_mem a = Ok u -> from_mem u = Ok a) -> length w = length v ->
    copy_to to_mem v m p = Ok m' ->
    copy_from from_mem w m' p = Ok v /\ load_ctor from_mem m' p (length v) = Ok v.
Proof. exact @store_load_round_trip. Qed.
Print Assumptions C15_round_trip.

(** The generator constructor and operator[] are inverse; operator[] traps exactly outside the lanes. *)
Theorem C15_generator_subscript :
  forall (A : Type) n (g : nat -> res A) v, gen n g = Ok v ->
    length v = n /\ forall i, (i < n)%nat -> subscript v (Z.of_nat i) = g i.
Proof. exact @gen_subscript. Qed.
Print Assumptions C15_generator_subscript.

Theorem C15_subscript_generator :
  forall (A : Type) (v : list A), gen (length v) (fun i => subscript v (Z.of_nat i)) = Ok v.
Proof. exact @subscript_gen. Qed.
Print Assumptions C15_subscript_generator.

Theorem C15_subscript_range :
  forall (A : Type) (v : list A) i, subscript v i = Stop STrap <-> ~ (0 <= i < Z.of_nat (length v)).
Proof. exact @subscript_range. Qed.
Print Assumptions C15_subscript_range.

(** Writing through operator[] changes that lane only. *)
Theorem C15_subscript_set :
  forall (A : Type) (v : list A) i x w, subscript_set v i x = Ok w ->
    length w = length v /\ subscript w i = Ok x /\ forall j, j <> i -> subscript w j = subscript v j.
Proof. exact @subscript_set_get. Qed.
Print Assumptions C15_subscript_set.

Theorem C15_broadcast : forall (A : Type) n (a : A), broadcast n a = Ok (repeat a n).
Proof. exact @broadcast_lanes. Qed.
Print Assumptions C15_broadcast.

Example C15_instance :
  copy_from demo_id [0; 0; 0] demo_mem 4 = Ok [14; 15; 16]
  /\ copy_from demo_id [0; 0; 0] demo_mem 8 = Stop SUB
  /\ (exists m', copy_to demo_id [1; 2; 3] demo_mem 4 = Ok m' /\ m' 4 = Some 1 /\ m' 6 = Some 3 /\ m' 7 = Some 17
      /\ m' 3 = Some 13)
  /\ copy_to demo_id [1; 2; 3] demo_mem 8 = Stop SUB
  /\ subscript [1; 2; 3] 2 = Ok 3 /\ subscript [1; 2; 3] 3 = Stop STrap.
Proof.
  split; [vm_compute; reflexivity|]. split; [vm_compute; reflexivity|].
  split; [eexists; split; [vm_compute; reflexivity|]; vm_compute; auto|].
  vm_compute. auto.
Qed.

(** C16.  Assignment through where(). *)
Theorem C16_assign :
  forall (A : Type) k (v rhs : list A), length k = length v -> length rhs = length v ->
    exists r, where_assign k v rhs = Ok r /\ length r = length v
      /\ forall i, nth_error r i = match nth_error k i with Some true => nth_error rhs i | _ => nth_error v i end.
Proof. exact @where_assign_result. Qed.
Print Assumptions C16_assign.

(** Compound assignment: the selected lanes are [op] of the operands, the others unchanged, and an
    error can only come from a selected lane. *)
Theorem C16_compound :
  forall (A : Type) (op : A -> A -> res A) k v rhs, length k = length v -> length rhs = length v ->
    (forall r, where_op op k v rhs = Ok r <->
       length r = length v
       /\ (forall i, nth_error k i = Some false -> nth_error r i = nth_error v i)
       /\ (forall i a b, nth_error k i = Some true -> nth_error v i = Some a -> nth_error rhs i = Some b ->
             exists c, op a b = Ok c /\ nth_error r i = Some c))
    /\ (forall s, where_op op k v rhs = Stop s ->
          exists i a b, nth_error k i = Some true /\ nth_error v i = Some a /\ nth_error rhs i = Some b
            /\ op a b = Stop s).
Proof. exact @where_op_result. Qed.
Print Assumptions C16_compound.

(** ++ and -- *)
Theorem C16_increment_decrement :
  forall (A : Type) (step : A -> res A) k v, length k = length v ->
    (forall r, where_step step k v = Ok r <->
       length r = length v
       /\ (forall i, nth_error k i = Some false -> nth_error r i = nth_error v i)
       /\ (forall i a, nth_error k i = Some true -> nth_error v i = Some a ->
             exists c, step a = Ok c /\ nth_error r i = Some c))
    /\ (forall s, where_step step k v = Stop s ->
          exists i a, nth_error k i = Some true /\ nth_error v i = Some a /\ step a = Stop s).
Proof. exact @where_step_result. Qed.
Print Assumptions C16_increment_decrement.

(** The const forms return the same value; a mask may mask itself; bool is the one-lane case. *)
Theorem C16_const_forms :
  forall (A U : Type) (neg : A -> res A) (from_mem : U -> res A) k v m p, length k = length v ->
    c_where_neg neg k v = where_step neg k v
    /\ c_where_copy_from from_mem k v m p = where_copy_from from_mem k v m p.
Proof. exact @c_where_is_where. Qed.
Print Assumptions C16_const_forms.

Theorem C16_self_masked :
  forall (op : bool -> bool -> res bool) (k rhs : list bool), where_self op k rhs = where_op op k k rhs.
Proof. exact where_self_is_where. Qed.
Print Assumptions C16_self_masked.

Theorem C16_bool_where :
  forall (A U : Type) (op : A -> A -> res A) (step neg : A -> res A) (from_mem : U -> res A)
      (to_mem : A -> res U) k (v x : A) m p,
    where_assign [k] [v] [x] = bindR (b_where_assign k v x) (fun r => Ok [r])
    /\ where_op op [k] [v] [x] = bindR (b_where_op op k v x) (fun r => Ok [r])
    /\ where_step step [k] [v] = bindR (b_where_step step k v) (fun r => Ok [r])
    /\ c_where_neg neg [k] [v] = bindR (b_c_where_neg neg k v) (fun r => Ok [r])
    /\ where_copy_from from_mem [k] [v] m p = bindR (b_where_copy_from from_mem k v m p) (fun r => Ok [r])
    /\ where_copy_to to_mem [k] [v] m p = b_where_copy_to to_mem k v m p.
Proof. exact @bool_where_is_where. Qed.
Print Assumptions C16_bool_where.

(** Division by zero and overflow in unselected lanes are harmless. *)
Example C16_instance :
  let l := mklang 32 true in let i32 := mkity 32 true in
  where_op (assign_bin l i32 Div) [true; false; true; false] [7; 7; -9; -2147483648] [2; 0; 4; -1]
    = Ok [3; 7; -2; -2147483648]
  /\ where_op (assign_bin l i32 Div) [true; true] [7; 7] [2; 0] = Stop SUB
  /\ where_step (incr l i32) [false; true] [2147483647; 1] = Ok [2147483647; 2]
  /\ where_assign [false; true; true] [1; 2; 3] [7; 8; 9] = Ok [1; 8; 9]
  /\ where_self (fun a b => Ok (a && b)) [true; false; true] [false; true; true] = Ok [false; false; true].
Proof. vm_compute. auto. Qed.

(** C17.  where(k, v).copy_from(p). *)
Theorem C17_masked_load :
  forall (A U : Type) (from_mem : U -> res A) k v m p, length k = length v ->
    forall r, where_copy_from from_mem k v m p = Ok r <->
      length r = length v
      /\ (forall i, nth_error k i = Some false -> nth_error r i = nth_error v i)
      /\ (forall i, nth_error k i = Some true ->
            exists u a, m (p + Z.of_nat i) = Some u /\ from_mem u = Ok a /\ nth_error r i = Some a).
Proof. exact @where_copy_from_result. Qed.
Print Assumptions C17_masked_load.

Theorem C17_masked_load_frame :
  forall (A U : Type) (from_mem : U -> res A) k v m m' p, length k = length v ->
    (forall q, selected k p q -> m' q = m q) ->
    where_copy_from from_mem k v m' p = where_copy_from from_mem k v m p.
Proof. exact @where_copy_from_frame. Qed.
Print Assumptions C17_masked_load_frame.

(** where(k, v).copy_to(p). *)
Theorem C17_masked_store :
  forall (A U : Type) (to_mem : A -> res U) k v m p, length k = length v ->
    (forall i a, nth_error k i = Some true -> nth_error v i = Some a ->
       (exists u, to_mem a = Ok u) /\ m (p + Z.of_nat i) <> None) ->
    exists m', where_copy_to to_mem k v m p = Ok m'
      /\ (forall i a u, nth_error k i = Some true -> nth_error v i = Some a -> to_mem a = Ok u ->
            m' (p + Z.of_nat i) = Some u)
      /\ (forall q, ~ selected k p q -> m' q = m q).
Proof. exact @where_copy_to_writes. Qed.
Print Assumptions C17_masked_store.

Theorem C17_masked_store_defined_only_if :
  forall (A U : Type) (to_mem : A -> res U) k v m p m', length k = length v ->
    where_copy_to to_mem k v m p = Ok m' ->
    forall i a, nth_error k i = Some true -> nth_error v i = Some a ->
      (exists u, to_mem a = Ok u) /\ m (p + Z.of_nat i) <> None.
Proof. exact @where_copy_to_needs. Qed.
Print Assumptions C17_masked_store_defined_only_if.

(** simd_mask(mem, k, flags). *)
Theorem C17_mask_masked_load :
  forall m p k r, mask_load_ctor_masked m p k = Ok r <->
    length r = length k
    /\ (forall i, nth_error k i = Some false -> nth_error r i = Some false)
    /\ (forall i, nth_error k i = Some true -> exists b, m (p + Z.of_nat i) = Some b /\ nth_error r i = Some b).
Proof. exact mask_load_masked_result. Qed.
Print Assumptions C17_mask_masked_load.

Theorem C17_mask_masked_load_frame :
  forall m m' p k, (forall q, selected k p q -> m' q = m q) ->
    mask_load_ctor_masked m' p k = mask_load_ctor_masked m p k.
Proof. exact mask_load_masked_frame. Qed.
Print Assumptions C17_mask_masked_load_frame.

(** Across the end of the memory: only the selected elements have to exist. *)
Example C17_instance :
  where_copy_from demo_id [true; true; false; false] [1; 2; 3; 4] demo_mem 8 = Ok [18; 19; 3; 4]
  /\ where_copy_from demo_id [true; true; true; false] [1; 2; 3; 4] demo_mem 8 = Stop SUB
  /\ (exists m', where_copy_to demo_id [false; true; false; false] [1; 2; 3; 4] demo_mem 8 = Ok m'
        /\ m' 9 = Some 2 /\ m' 8 = Some 18 /\ m' 10 = None)
  /\ mask_load_ctor_masked (fun q => if q =? 0 then Some true else None) 0 [true; false; false]
     = Ok [true; false; false].
Proof.
  split; [vm_compute; reflexivity|]. split; [vm_compute; reflexivity|].
  split; [eexists; split; [vm_compute; reflexivity|]; vm_compute; auto|]. vm_compute. reflexivity.
Qed.
