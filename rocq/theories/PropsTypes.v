(** Property theorems C45 (simdize) and C46 (ABI tags). *)
From Verif Require Import Base SimdizeModel SimdizeSpec SimdizeTypeModel SimdizeTypeSpec SimdizeTypeProofs
  SimdizeTypeExamples AbiModel AbiSpec AbiProofs.

(** C45: n lanes at every level, and simdize_size agrees.  Missing here and in the next two: types
    without [defaults_ok], for which the code is ill-formed. *)
Theorem C45_simdize_has_width_partial :
  forall t n, vectorizable_type t -> natives_ok t -> defaults_ok t -> 0 < n -> all_allow n t ->
    exists r, simdize t n = Ok r /\ simd_like n t r /\ simdize_size (lanes_tree r) = Ok n.
Proof. exact simdize_width. Qed.
Print Assumptions C45_simdize_has_width_partial.

(** N = 0: the largest native size of a scalar member. *)
Theorem C45_simdize_default_width_partial :
  forall t n, vectorizable_type t -> natives_ok t -> defaults_ok t -> widest t n ->
    simdize t 0 = simdize t n /\ (all_allow n t -> exists r, simdize t 0 = Ok r /\ simd_like n t r).
Proof. exact simdize_default. Qed.
Print Assumptions C45_simdize_default_width_partial.

(** Everything else is left alone: types with other members or empty aggregates, for every N, and
    widths some scalar member does not have. *)
Theorem C45_simdize_unchanged_partial :
  forall t n, (~ vectorizable_type t -> simdize t n = Ok Same)
    /\ (vectorizable_type t -> natives_ok t -> defaults_ok t -> 0 < n -> ~ all_allow n t -> simdize t n = Ok Same).
Proof. exact simdize_same. Qed.
Print Assumptions C45_simdize_unchanged_partial.

(** The translation unit is in error exactly if some member, at any depth, does not have its own default
    width; N does not matter. *)
Theorem C45_simdize_wellformed_iff :
  forall t n, vectorizable_type t -> natives_ok t ->
    ((exists r, simdize t n = Ok r) <-> defaults_ok t)
    /\ ((exists r, simdize t n = Ok r) \/ simdize t n = Stop SIllFormed).
Proof. exact simdize_wellformed_iff. Qed.
Print Assumptions C45_simdize_wellformed_iff.

(** struct { struct { double x; char y; } a; float b; } with native sizes 4, 32 and 8, and up to 32 lanes:
    the default is 32. *)
Example C45_instance :
  vectorizable_type (ex_nested 4 32) /\ natives_ok (ex_nested 4 32) /\ defaults_ok (ex_nested 4 32)
  /\ widest (ex_nested 4 32) 32 /\ all_allow 6 (ex_nested 4 32)
  /\ simdize (ex_nested 4 32) 6 = Ok (Tup 6 [Tup 6 [Simd 6; Simd 6]; Simd 6])
  /\ simdize (ex_nested 4 32) 0 = Ok (Tup 32 [Tup 32 [Simd 32; Simd 32]; Simd 32])
  /\ simdize (ex_nested 4 32) 33 = Ok Same
  /\ simdize (Struct [ex_nested 4 32; Leaf Opaque]) 4 = Ok Same
  /\ simdize (Struct [ex_nested 4 32; Struct []]) 4 = Ok Same.
Proof. exact nested_instance. Qed.

(** Finding: if a double cannot have as many lanes as a char has natively (64 against 32), the nested
    struct is an error for every N, although four lanes are possible; on its own the inner struct is left
    alone. *)
Theorem C45_nested_default_refuted :
  exists t n, vectorizable_type t /\ natives_ok t /\ 0 < n /\ all_allow n t
    /\ simdize t n = Stop SIllFormed
    /\ exists u, inside u t /\ (exists r, simdize u n = Ok r /\ simd_like n u r) /\ simdize u 0 = Ok Same.
Proof. exact nested_default_refuted. Qed.
Print Assumptions C45_nested_default_refuted.

(** C46: native fills a vector register, except for floating point with AVX but not AVX2. *)
Theorem C46_native_fills_register_partial :
  forall m sz is_float, In sz [1; 2; 4; 8] -> ~ (m = MAvx /\ is_float = true) ->
    bytes sz (native m sz is_float) = register_bytes m is_float.
Proof. exact native_register. Qed.
Print Assumptions C46_native_fills_register_partial.

(** Finding: there the lanes are not divided by the size of the element; always 32 lanes. *)
Theorem C46_native_avx_refuted :
  exists sz, In sz [4; 8] /\ bytes sz (native MAvx sz true) <> register_bytes MAvx true.
Proof. exact native_avx_refuted. Qed.
Print Assumptions C46_native_avx_refuted.

Theorem C46_native_avx_float :
  forall sz, In sz [1; 2; 4; 8] -> native MAvx sz true = AFixed 32.
Proof. exact native_avx_float. Qed.
Print Assumptions C46_native_avx_float.

Theorem C46_large_elements_scalar :
  forall m sz is_float, 8 < sz -> native m sz is_float = AScalar /\ compatible sz = AScalar.
Proof. exact native_large. Qed.
Print Assumptions C46_large_elements_scalar.

Theorem C46_compatible_fills_register :
  forall sz, In sz [1; 2; 4; 8] -> bytes sz (compatible sz) = 16.
Proof. exact compatible_bytes. Qed.
Print Assumptions C46_compatible_fills_register.

Theorem C46_deduce_lanes :
  forall n, 1 <= n < 2147483648 -> simd_size (deduce n) = Ok n /\ (deduce n = AScalar <-> n = 1).
Proof. exact deduce_lanes. Qed.
Print Assumptions C46_deduce_lanes.

Theorem C46_rebind_keeps_lanes :
  forall (E : Type) (t : E) v,
    v_elem (rebind_simd t v) = t /\ v_mask (rebind_simd t v) = v_mask v
    /\ simd_size (v_abi (rebind_simd t v)) = simd_size (v_abi v).
Proof. exact @rebind_lanes. Qed.
Print Assumptions C46_rebind_keeps_lanes.

(** resize_simd<N> exists exactly for N > 0, has N lanes, and the ABI deduce_t finds. *)
Theorem C46_resize_lanes :
  forall (E : Type) n (v : vtype E), n < 2147483648 ->
    (forall r, resize_simd n v = Ok r -> v_elem r = v_elem v /\ v_mask r = v_mask v /\ simd_size (v_abi r) = Ok n
               /\ v_abi r = deduce n)
    /\ ((exists r, resize_simd n v = Ok r) <-> 1 <= n).
Proof. exact @resize_lanes. Qed.
Print Assumptions C46_resize_lanes.

(** The two commute, and the last resize counts. *)
Theorem C46_rebind_resize_commute :
  forall (E : Type) n (t : E) v,
    bindR (resize_simd n v) (fun r => Ok (rebind_simd t r)) = resize_simd n (rebind_simd t v).
Proof. exact @rebind_resize. Qed.
Print Assumptions C46_rebind_resize_commute.

Theorem C46_resize_again :
  forall (E : Type) n k (v : vtype E), 1 <= n -> bindR (resize_simd n v) (resize_simd k) = resize_simd k v.
Proof. exact @resize_again. Qed.
Print Assumptions C46_resize_again.

Example C46_instance :
  native MAvx512 1 false = AFixed 64 /\ native MAvx2 8 true = AFixed 4 /\ native MAvx 4 false = AFixed 4
  /\ native MNone 16 true = AScalar /\ deduce 7 = AFixed 7
  /\ resize_simd 5 (mkvt 4 (native MAvx2 4 true) false) = Ok (mkvt 4 (AFixed 5) false)
  /\ resize_simd 0 (mkvt 4 AScalar true) = Stop SIllFormed /\ deduce 4294967300 = AFixed 4.
Proof. now repeat split. Qed.
