(** Property theorems C19, C35, C37, C38, C39 and C40. *)
From Verif Require Import Base LaneModel WhereModel ShapeModel ShapeProofs IntModel IntProofs.

(** C19.  split<Sizes...>: part k has Sizes[k] lanes, the consecutive ones that start at the sum of
    the previous sizes. *)
Theorem C19_split_parts :
  forall (A : Type) sizes (v : list A), length v = list_sum sizes ->
    exists parts, split_sizes sizes v = Ok parts /\ length parts = length sizes
      /\ forall k s, nth_error sizes k = Some s -> exists part, nth_error parts k = Some part /\ length part = s
           /\ forall j, (j < s)%nat -> nth_error part j = nth_error v (list_sum (firstn k sizes) + j).
Proof. exact @split_sizes_parts. Qed.
Print Assumptions C19_split_parts.

(** concat puts the lanes one after the other. *)
Theorem C19_concat : forall (A : Type) (xs : list (list A)), concat_pack xs = Ok (concat xs).
Proof. exact @concat_pack_ok. Qed.
Print Assumptions C19_concat.

Theorem C19_concat_split :
  forall (A : Type) sizes (v : list A) parts, split_sizes sizes v = Ok parts -> concat_pack parts = Ok v.
Proof. exact @concat_split. Qed.
Print Assumptions C19_concat_split.

Theorem C19_split_concat :
  forall (A : Type) (xs : list (list A)) v, concat_pack xs = Ok v -> split_sizes (map (@length A) xs) v = Ok xs.
Proof. exact @split_concat. Qed.
Print Assumptions C19_split_concat.

(** The array forms agree with the pack forms. *)
Theorem C19_split_array :
  forall (A : Type) vs (v : list A) n, (0 < vs)%nat -> length v = (n * vs)%nat ->
    split_array vs v = split_sizes (repeat vs n) v.
Proof. exact @split_array_is_split_sizes. Qed.
Print Assumptions C19_split_array.

Theorem C19_split_array_ill_formed :
  forall (A : Type) vs (v : list A), (0 < vs)%nat ->
    split_array vs v = Stop SIllFormed <-> (length v mod vs <> 0)%nat.
Proof. exact @split_array_ill_formed. Qed.
Print Assumptions C19_split_array_ill_formed.

Theorem C19_concat_array :
  forall (A : Type) K (x : list (list A)), (0 < K)%nat -> (forall y, In y x -> length y = K) ->
    concat_array K x = concat_pack x.
Proof. exact @concat_array_is_concat. Qed.
Print Assumptions C19_concat_array.

Theorem C19_split_same :
  forall (A : Type) (v : list A), split_same v = [v] /\ concat_pack (split_same v) = Ok v
    /\ split_sizes [length v] v = Ok (split_same v).
Proof. exact @split_same_ok. Qed.
Print Assumptions C19_split_same.

Example C19_example :
  split_sizes [2; 1; 3]%nat [10; 11; 12; 13; 14; 15] = Ok [[10; 11]; [12]; [13; 14; 15]]
  /\ concat_pack [[10; 11]; [12]; [13; 14; 15]] = Ok [10; 11; 12; 13; 14; 15]
  /\ split_array 2 [10; 11; 12; 13; 14; 15] = Ok [[10; 11]; [12; 13]; [14; 15]]
  /\ concat_array 3 [[10; 11; 12]; [13; 14; 15]] = Ok [10; 11; 12; 13; 14; 15]
  /\ split_array 4 [10; 11; 12; 13; 14; 15] = Stop SIllFormed.
Proof. vm_compute. repeat split. Qed.

(** C35.  Bit i of the bitset is lane i of the mask, in both directions. *)
Theorem C35_to_bitset :
  forall k, exists b, to_bitset k = Ok b
    /\ 0 <= b /\ forall i, Z.testbit b (Z.of_nat i) = match nth_error k i with Some x => x | None => false end.
Proof. exact to_bitset_bits. Qed.
Print Assumptions C35_to_bitset.

Theorem C35_to_simd_mask :
  forall n b, exists k, to_simd_mask n b = Ok k /\ length k = n
    /\ forall i, (i < n)%nat -> nth_error k i = Some (Z.testbit b (Z.of_nat i)).
Proof. exact to_simd_mask_lanes. Qed.
Print Assumptions C35_to_simd_mask.

Theorem C35_mask_round_trip : forall k b, to_bitset k = Ok b -> to_simd_mask (length k) b = Ok k.
Proof. exact mask_bitset_mask. Qed.
Print Assumptions C35_mask_round_trip.

Theorem C35_bitset_round_trip :
  forall n b k, 0 <= b < 2 ^ Z.of_nat n -> to_simd_mask n b = Ok k -> to_bitset k = Ok b.
Proof. exact bitset_mask_bitset. Qed.
Print Assumptions C35_bitset_round_trip.

Example C35_example :
  to_bitset [true; false; true; true; false] = Ok 13
  /\ to_simd_mask 5 13 = Ok [true; false; true; true; false]
  /\ to_bitset [true] = Ok 1 /\ to_simd_mask 1 1 = Ok [true].
Proof. vm_compute. repeat split. Qed.

(** C37 *)
Theorem C37_resize :
  forall (A : Type) (zero : A) n x, exists r, simd_resize zero n x = Ok r /\ simd_size_cast zero n x = Ok r
    /\ length r = n
    /\ (forall i, (i < n)%nat -> (i < length x)%nat -> nth_error r i = nth_error x i)
    /\ (forall i, (i < n)%nat -> (length x <= i)%nat -> nth_error r i = Some zero).
Proof. exact @resize_lanes. Qed.
Print Assumptions C37_resize.

Theorem C37_grow_shrink :
  forall (A : Type) (zero zero' : A) n x w, (length x <= n)%nat -> simd_resize zero n x = Ok w ->
    simd_resize zero' (length x) w = Ok x.
Proof. exact @resize_grow_shrink. Qed.
Print Assumptions C37_grow_shrink.

Example C37_example :
  simd_resize 0 5 [7; 8; 9] = Ok [7; 8; 9; 0; 0] /\ simd_resize 0 3 [7; 8; 9; 0; 0] = Ok [7; 8; 9]
  /\ simd_resize 0 2 [7; 8; 9] = Ok [7; 8].
Proof. vm_compute. repeat split. Qed.

(** C38.  static_simd_cast<T> converts lane by lane. *)
Theorem C38_static_simd_cast :
  forall (A B : Type) (cv : A -> res B) x r, static_simd_cast cv x = Ok r <->
    length r = length x /\ forall i a, nth_error x i = Some a -> exists b, cv a = Ok b /\ nth_error r i = Some b.
Proof. exact @static_simd_cast_lanes. Qed.
Print Assumptions C38_static_simd_cast.

(** static_simd_cast<V>: proved for a V with as many lanes as the argument (missing: the function
    also accepts other sizes, see the refutation below). *)
Theorem C38_static_simd_cast_to_partial :
  forall (A B : Type) (cv : A -> res B) x r, static_simd_cast_to cv (length x) x = Ok r <->
    length r = length x /\ forall i a, nth_error x i = Some a -> exists b, cv a = Ok b /\ nth_error r i = Some b.
Proof. exact @static_simd_cast_lanes. Qed.
Print Assumptions C38_static_simd_cast_to_partial.

Theorem C38_static_simd_cast_to_refuted :
  exists n (x r : list Z), static_simd_cast_to (fun a => Ok a) n x = Ok r /\ length r <> length x.
Proof. exact static_simd_cast_to_refuted. Qed.
Print Assumptions C38_static_simd_cast_to_refuted.

Theorem C38_static_simd_cast_to_larger :
  forall (A B : Type) (cv : A -> res B) n x, (length x < n)%nat -> forall r, static_simd_cast_to cv n x <> Ok r.
Proof. exact @static_simd_cast_to_larger. Qed.
Print Assumptions C38_static_simd_cast_to_larger.

(** Every size: the first n lanes are converted, if there are that many. *)
Theorem C38_static_simd_cast_to_iff :
  forall (A B : Type) (cv : A -> res B) n x r, static_simd_cast_to cv n x = Ok r <->
    (n <= length x)%nat /\ length r = n
    /\ forall i a, (i < n)%nat -> nth_error x i = Some a -> exists b, cv a = Ok b /\ nth_error r i = Some b.
Proof. exact @static_simd_cast_to_iff. Qed.
Print Assumptions C38_static_simd_cast_to_iff.

(** The mask forms: the same lanes, and ill-formed for another size. *)
Theorem C38_static_mask_cast :
  forall n x r, static_mask_cast_to n x = Ok r <-> n = length x /\ r = x.
Proof. exact static_mask_cast_lanes. Qed.
Print Assumptions C38_static_mask_cast.

Theorem C38_to_fixed_size : forall (A : Type) (x : list A), to_fixed_size x = x
    /\ (length x = 1%nat -> to_fixed_size_native x = Ok x).
Proof. exact @to_fixed_size_same. Qed.
Print Assumptions C38_to_fixed_size.

(** to_native, to_compatible: proved for element types larger than 8 bytes, whose native simd has
    one lane (missing: smaller types, refuted below). *)
Theorem C38_to_native_partial :
  forall (A : Type) sizeofT (x : list A), 8 < sizeofT -> length x = 1%nat ->
    to_native sizeofT x = Ok x /\ to_compatible sizeofT x = Ok x.
Proof. exact @to_native_large. Qed.
Print Assumptions C38_to_native_partial.

Theorem C38_to_native_refuted :
  exists sizeofT (x r : list Z), length x = 1%nat /\ to_native sizeofT x = Ok r /\ length r <> length x.
Proof. exact to_native_refuted. Qed.
Print Assumptions C38_to_native_refuted.

(** What it does instead. *)
Theorem C38_to_native_broadcasts :
  forall (A : Type) sizeofT (a : A), to_native sizeofT [a] = Ok (repeat a (compatible_size sizeofT)).
Proof. exact @to_native_lanes. Qed.
Print Assumptions C38_to_native_broadcasts.

Example C38_example :
  static_simd_cast (fun z => Ok (convert u16 z)) [1; 65537; -1] = Ok [1; 1; 65535]
  /\ static_mask_cast_to 2 [true; false] = Ok [true; false]
  /\ static_mask_cast_to 3 [true; false] = Stop SIllFormed
  /\ to_native 16 [7] = Ok [7] /\ to_native 8 [7] = Ok [7; 7].
Proof. vm_compute. repeat split. Qed.

(** C39.  [lt] is any relation; the functions compute lane by lane. *)
Theorem C39_lanes :
  forall (T : Type) (lt : T -> T -> bool) a b, length a = length b -> exists mn mx,
    simd_min lt a b = Ok mn /\ simd_max lt a b = Ok mx /\ simd_minmax lt a b = Ok (mn, mx)
    /\ lanewise2 (std_min lt) a b mn /\ lanewise2 (std_max lt) a b mx.
Proof. exact @minmax_lanes. Qed.
Print Assumptions C39_lanes.

(** For a strict total order the two are a and b in order. *)
Theorem C39_ordered :
  forall (T : Type) (lt : T -> T -> bool) a b, total_order lt ->
    le lt (std_min lt a b) a /\ le lt (std_min lt a b) b /\ le lt a (std_max lt a b) /\ le lt b (std_max lt a b)
    /\ ((std_min lt a b = a /\ std_max lt a b = b) \/ (std_min lt a b = b /\ std_max lt a b = a)).
Proof. exact @minmax_values. Qed.
Print Assumptions C39_ordered.

Theorem C39_clamp_lanes :
  forall (T : Type) (lt : T -> T -> bool) v lo hi, length lo = length v -> length hi = length v ->
    (forall i x y, nth_error lo i = Some x -> nth_error hi i = Some y -> le lt x y) ->
    exists r, simd_clamp lt v lo hi = Ok r /\ length r = length v
      /\ forall i x l h, nth_error v i = Some x -> nth_error lo i = Some l -> nth_error hi i = Some h ->
           exists y, std_clamp lt x l h = Ok y /\ nth_error r i = Some y.
Proof. exact @clamp_lanes. Qed.
Print Assumptions C39_clamp_lanes.

Theorem C39_clamp_ordered :
  forall (T : Type) (lt : T -> T -> bool) x l h, total_order lt -> le lt l h -> exists y, std_clamp lt x l h = Ok y
    /\ le lt l y /\ le lt y h /\ (le lt l x -> le lt x h -> y = x) /\ (lt x l = true -> y = l) /\ (lt h x = true -> y = h).
Proof. exact @clamp_values. Qed.
Print Assumptions C39_clamp_ordered.

(** clamp is defined only if lo <= hi in every lane. *)
Theorem C39_clamp_defined_only_if :
  forall (T : Type) (lt : T -> T -> bool) v lo hi r, length lo = length v -> length hi = length v ->
    simd_clamp lt v lo hi = Ok r ->
    forall i x y, nth_error lo i = Some x -> nth_error hi i = Some y -> le lt x y.
Proof. exact @clamp_undefined. Qed.
Print Assumptions C39_clamp_defined_only_if.

Example C39_example :
  total_order Z.ltb
  /\ simd_minmax Z.ltb [3; 5; 2] [4; 5; 1] = Ok ([3; 5; 1], [4; 5; 2])
  /\ simd_clamp Z.ltb [-5; 5; 15] [0; 0; 0] [10; 10; 10] = Ok [0; 5; 10]
  /\ simd_clamp Z.ltb [1] [2] [0] = Stop SUB.
Proof.
  split; [|vm_compute; repeat split].
  split; [intros a; apply Z.ltb_irrefl|]. split; [intros a b c; rewrite !Z.ltb_lt; apply Z.lt_trans|].
  intros a b; rewrite !Z.ltb_ge. intros; now apply Z.le_antisymm.
Qed.

(** C40 *)
Theorem C40_iota :
  forall (T : Type) (cv : Z -> T) n, exists r, iota_simd cv n = Ok r /\ iota_array cv n = r /\ length r = n
    /\ forall i, (i < n)%nat -> nth_error r i = Some (cv (Z.of_nat i)).
Proof. exact @iota_lanes. Qed.
Print Assumptions C40_iota.

(** For integer element types: the index itself whenever it is representable, and a scalar has the
    one value 0. *)
Theorem C40_iota_int :
  forall t n r, type_ok t -> iota_simd (convert t) n = Ok r ->
    iota_scalar 0 = 0 /\ forall i, (i < n)%nat -> in_type t (Z.of_nat i) = true -> nth_error r i = Some (Z.of_nat i).
Proof. exact iota_int. Qed.
Print Assumptions C40_iota_int.

Example C40_example :
  iota_simd (convert u16) 5 = Ok [0; 1; 2; 3; 4] /\ iota_array (convert (mkity 2 false)) 6 = [0; 1; 2; 3; 0; 1]
  /\ iota_scalar 0 = 0.
Proof. vm_compute. repeat split. Qed.
