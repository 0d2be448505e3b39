(** Property theorem C22. *)
From Verif Require Import Base LaneModel IntModel IntProofs ShapeModel ValueModel ValueProofs ValueExact.

(** C22.  is_value_preserving<From, To> implies that every value of From is a value of To.  Proved for
    all integer types, bool and floating-point formats (missing: a floating-point format whose range
    lies inside that of the integer type To, refuted below). *)
Theorem C22_value_preserving_partial :
  forall l same from to, aty_ok from -> aty_ok to -> (same = true -> from = to) ->
    (forall p emax t, from = AFloat p emax -> to = AInt t -> bits t <= emax) ->
    is_value_preserving l same from to = true -> forall m e, has_value from m e -> has_value to m e.
Proof. exact value_preserving_partial. Qed.
Print Assumptions C22_value_preserving_partial.

(** std::float16_t to int is accepted by both conditions of the conversion constructor. *)
Theorem C22_float16_refuted :
  exists from to m e, aty_ok from /\ aty_ok to
    /\ is_value_preserving lp64 false from to = true
    /\ is_higher_integer_rank false 4 2 false = true
    /\ has_value from m e /\ ~ has_value to m e.
Proof. exact float16_to_int_refuted. Qed.
Print Assumptions C22_float16_refuted.

(** All other floating-point to integer conversions are rejected. *)
Theorem C22_float_to_int_rejected :
  forall l p emax t, aty_ok (AFloat p emax) -> 2 <= bits t <= emax ->
    is_value_preserving l false (AFloat p emax) (AInt t) = false.
Proof. exact float_to_int_rejected. Qed.
Print Assumptions C22_float_to_int_rejected.

(** Between integer types only conversions that change some value are rejected. *)
Theorem C22_int_complete :
  forall l t u, lang_ok l -> 2 <= bits t -> 2 <= bits u ->
    (forall m e, has_value (AInt t) m e -> has_value (AInt u) m e) ->
    is_value_preserving l false (AInt t) (AInt u) = true.
Proof. exact value_preserving_int_complete. Qed.
Print Assumptions C22_int_complete.

(** Exactly which conversions are accepted: those that keep every value, and those from a floating-point
    format to a signed integer type whose maximum exceeds that of the format (rounded to the format it is
    infinite, so that the comparison of the maxima holds). *)
Theorem C22_accepted_iff :
  forall l same from to, lang_ok l -> aty_ok from -> aty_ok to ->
    (same = true -> from = to) -> (from = ABool -> to = ABool -> same = true) ->
    (is_value_preserving l same from to = true <->
     (forall m e, has_value from m e -> has_value to m e)
     \/ exists p emax t, from = AFloat p emax /\ to = AInt t /\ sgn t = true /\ emax < bits t - 1).
Proof. exact value_preserving_exact. Qed.
Print Assumptions C22_accepted_iff.

(** float16_t (11 digits, maximum exponent 15): to a 32-bit and a 17-bit type, not to a 16-bit one. *)
Example C22_accepted_iff_ex :
  is_value_preserving lp64 false (AFloat 11 15) (AInt (mkity 32 true)) = true
  /\ is_value_preserving lp64 false (AFloat 11 15) (AInt (mkity 17 true)) = true
  /\ is_value_preserving lp64 false (AFloat 11 15) (AInt (mkity 16 true)) = false
  /\ is_value_preserving lp64 false (AFloat 11 15) (AInt (mkity 32 false)) = false.
Proof. vm_compute. repeat split. Qed.

(** Broadcasts: value-preserving except for int, and unsigned to an unsigned type. *)
Theorem C22_broadcast_partial :
  forall l same is_int is_uint from to, aty_ok from -> aty_ok to -> (same = true -> from = to) ->
    (forall p emax t, from = AFloat p emax -> to = AInt t -> bits t <= emax) ->
    value_preserving_or_int l same is_int is_uint from to = true ->
    is_int = true \/ (is_uint = true /\ is_unsigned_ty to = true)
    \/ forall m e, has_value from m e -> has_value to m e.
Proof. exact broadcast_partial. Qed.
Print Assumptions C22_broadcast_partial.

(** The implicit simd conversion and simd_cast keep every lane (integer element types). *)
Theorem C22_conversion_constructor :
  forall l same to from st sf first x r, 2 <= bits from -> 2 <= bits to ->
    (same = true -> from = to) -> all_in from x ->
    conversion_ctor l same to from st sf first x = Ok r -> r = x.
Proof. exact conversion_ctor_keeps. Qed.
Print Assumptions C22_conversion_constructor.

Theorem C22_simd_cast :
  forall l same to from x r, 2 <= bits from -> 2 <= bits to ->
    (same = true -> from = to) -> all_in from x -> simd_cast l same to from x = Ok r -> r = x.
Proof. exact simd_cast_keeps. Qed.
Print Assumptions C22_simd_cast.

(** float is AFloat 24 127, double AFloat 53 1023, long double (x87) AFloat 64 16383. *)
Example C22_example :
  is_value_preserving lp64 false (AFloat 24 127) (AFloat 53 1023) = true
  /\ is_value_preserving lp64 false (AFloat 53 1023) (AFloat 24 127) = false
  /\ is_value_preserving lp64 false (AInt (mkity 16 true)) (AFloat 24 127) = true
  /\ is_value_preserving lp64 false (AInt (mkity 32 true)) (AFloat 24 127) = false
  /\ is_value_preserving lp64 false (AInt (mkity 64 true)) (AFloat 64 16383) = true
  /\ is_value_preserving lp64 false (AInt (mkity 32 true)) (AInt (mkity 32 false)) = false
  /\ is_value_preserving lp64 false (AInt (mkity 32 false)) (AInt (mkity 64 true)) = true
  /\ is_value_preserving lp64 false (AFloat 24 127) (AInt (mkity 64 true)) = false
  /\ is_value_preserving lp64 false ABool (AInt (mkity 8 true)) = true
  /\ is_value_preserving lp64 false (AInt (mkity 8 true)) ABool = false
  /\ conversion_ctor lp64 false (mkity 32 true) (mkity 16 false) 4 2 false [1; 65535] = Ok [1; 65535]
  /\ conversion_ctor lp64 false (mkity 16 true) (mkity 16 false) 2 2 false [1; 65535] = Stop SIllFormed
  /\ simd_cast lp64 false (mkity 64 true) (mkity 32 true) [-7; 8] = Ok [-7; 8].
Proof. vm_compute. repeat split. Qed.
