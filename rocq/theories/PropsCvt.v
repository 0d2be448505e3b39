(** Property theorems C68: vir::cvt. *)
From Verif Require Import Base IntModel IntProofs ValueModel ValueProofs CvtModel CvtSpec CvtProofs CvtImplicit CvtExamples.

(** C68: cvt(x) initialises, in every context, every lane with the converted lane of x. *)
Theorem C68_converts :
  forall (V : Type) l sum boolty (conv : arith -> arith -> V -> res V) c const_arg T U x r,
    conv_refl conv -> lane_wise T U -> (0 < lanes_of U)%nat -> length x = lanes_of T ->
    ~ const_copy_of_convertible l sum c const_arg T U ->
    (init_from_cvt l sum boolty conv c const_arg T U x = Ok r <-> converted conv boolty T U x r).
Proof. intros. now apply converts'. Qed.
Print Assumptions C68_converts.

(** Such a conversion compiles, and fails at run time only where the conversion of a lane does. *)
Theorem C68_failure :
  forall (V : Type) l sum boolty (conv : arith -> arith -> V -> res V) c const_arg T U x s,
    conv_refl conv -> lane_wise T U -> (0 < lanes_of U)%nat -> length x = lanes_of T ->
    ~ const_copy_of_convertible l sum c const_arg T U ->
    init_from_cvt l sum boolty conv c const_arg T U x = Stop s ->
    exists v, In v x /\ conv (lane_type boolty T) (lane_type boolty U) v = Stop s.
Proof. intros V l sum boolty conv c k T U x s Hr. now apply fails'. Qed.
Print Assumptions C68_failure.

(** README.md 132-148: short and int to float, float to int, masks, and scalars. *)
Example C68_converts_case :
  ex_init RefBind false (Simd ty_float (AFixed 4)) (Simd ty_int (AFixed 4)) [1; -2; 3; 40] = Ok [1; -2; 3; 40] /\
  ex_init DirectInit false (Simd ty_int (AFixed 4)) (Simd ty_short (AFixed 4)) [1; -2; 65539; 40] = Ok [1; -2; 3; 40] /\
  ex_init CopyInit true (Simd ty_int AScalar) (Simd ty_uint (AFixed 1)) [-1] = Ok [4294967295] /\
  ex_init CopyInit true (Mask ty_int AScalar) (Mask ty_float (AFixed 1)) [1] = Ok [1] /\
  ex_init CopyInit true (Arith ty_int) (Arith ty_short) [65539] = Ok [3] /\
  ex_init CopyInit true (Arith ty_float) (Simd ty_int (AFixed 3)) [7] = Ok [7; 7; 7] /\
  ex_init CopyInit true (Simd ty_float (AFixed 2)) (Simd ty_int (AFixed 2)) [1; 2 ^ 40] = Stop SUB.
Proof. repeat split; reflexivity. Qed.

(** The exception: a const cvt object of a scalar does not copy-initialise a simd that the scalar itself
    does. *)
Theorem C68_const_copy_refuted :
  forall (V : Type) l sum boolty (conv : arith -> arith -> V -> res V) c const_arg T U x,
    const_copy_of_convertible l sum c const_arg T U -> (0 < lanes_of U)%nat ->
    init_from_cvt l sum boolty conv c const_arg T U x = Stop SIllFormed /\
    convertible l sum T U = true.
Proof.
  intros V l sum boolty conv c k T U x H Hn. split; [now apply const_copy_fails|]. apply H.
Qed.
Print Assumptions C68_const_copy_refuted.

Example C68_const_copy_case :
  const_copy_of_convertible ex_l ex_sum CopyInit true (Arith ty_int) (Simd ty_float (AFixed 4)) /\
  ex_init CopyInit true (Arith ty_int) (Simd ty_float (AFixed 4)) [5] = Stop SIllFormed /\
  ex_init CopyInit false (Arith ty_int) (Simd ty_float (AFixed 4)) [5] = Ok [5; 5; 5; 5] /\
  ex_init DirectInit true (Arith ty_int) (Simd ty_float (AFixed 4)) [5] = Ok [5; 5; 5; 5] /\
  ex_init RefBind true (Arith ty_int) (Simd ty_float (AFixed 4)) [5] = Ok [5; 5; 5; 5].
Proof. split; [|repeat split; reflexivity]. repeat split; eauto. Qed.

(** Exactly these conversions compile. *)
Theorem C68_accepts_iff :
  forall (V : Type) l sum boolty (conv : arith -> arith -> V -> res V) c const_arg T U x,
    conv_refl conv -> conv_ub conv -> (0 < lanes_of U)%nat -> length x = lanes_of T ->
    (init_from_cvt l sum boolty conv c const_arg T U x <> Stop SIllFormed <->
     (lane_wise T U /\ ~ const_copy_of_convertible l sum c const_arg T U) \/ also_accepted c T U).
Proof. intros. now apply accepts'. Qed.
Print Assumptions C68_accepts_iff.

Example C68_accepts_case :
  ex_init CopyInit false (Simd ty_int (AFixed 4)) (Arith ty_int) [1; 2; 3; 4] = Stop SIllFormed /\
  ex_init CopyInit false (Mask ty_int (AFixed 2)) (Mask ty_int (AFixed 4)) [1; 0] = Stop SIllFormed /\
  ex_init CopyInit false (Arith ty_bool) (Mask ty_int (AFixed 4)) [1] = Stop SIllFormed /\
  ex_init DirectInit false (Arith ty_bool) (Mask ty_int (AFixed 4)) [1] = Ok [1; 1; 1; 1].
Proof. repeat split; reflexivity. Qed.

(** A simd converts to one with fewer lanes, silently dropping the others ... *)
Theorem C68_fewer_lanes_refuted :
  forall (V : Type) l sum boolty (conv : arith -> arith -> V -> res V) c const_arg a A b B x r,
    conv_refl conv -> (lanes_of (Simd b B) < lanes_of (Simd a A))%nat -> length x = lanes_of (Simd a A) ->
    (init_from_cvt l sum boolty conv c const_arg (Simd a A) (Simd b B) x = Ok r <->
     converted conv boolty (Simd a A) (Simd b B) x r).
Proof. intros. now apply fewer. Qed.
Print Assumptions C68_fewer_lanes_refuted.

Example C68_fewer_lanes_case :
  ex_init CopyInit false (Simd ty_int (AFixed 4)) (Simd ty_float (AFixed 2)) [1; 2; 3; 4] = Ok [1; 2] /\
  ex_init CopyInit false (Simd ty_int (AFixed 4)) (Simd ty_int AScalar) [1; 2; 3; 4] = Ok [1].
Proof. split; reflexivity. Qed.

(** ... and to one with more lanes, which always violates the precondition of the subscript operator
    (unless a lane cannot be converted, which happens first). *)
Theorem C68_more_lanes_refuted :
  forall (V : Type) l sum boolty (conv : arith -> arith -> V -> res V) c const_arg a A b B x,
    conv_ub conv -> (lanes_of (Simd a A) < lanes_of (Simd b B))%nat -> length x = lanes_of (Simd a A) ->
    (init_from_cvt l sum boolty conv c const_arg (Simd a A) (Simd b B) x = Stop STrap <->
     forall v, In v x -> exists w, conv a b v = Ok w) /\
    (init_from_cvt l sum boolty conv c const_arg (Simd a A) (Simd b B) x = Stop SUB <->
     exists v, In v x /\ conv a b v = Stop SUB).
Proof. intros. now apply more. Qed.
Print Assumptions C68_more_lanes_refuted.

Example C68_more_lanes_case :
  ex_init CopyInit false (Simd ty_int (AFixed 2)) (Simd ty_float (AFixed 4)) [1; 2] = Stop STrap /\
  ex_init CopyInit false (Simd ty_float (AFixed 2)) (Simd ty_int (AFixed 4)) [1; 2 ^ 40] = Stop SUB.
Proof. split; reflexivity. Qed.

(** A mask converts implicitly to a simd of any element type with as many lanes. *)
Theorem C68_mask_to_simd :
  forall (V : Type) l sum boolty (conv : arith -> arith -> V -> res V) c const_arg a A b B x r,
    length x = lanes_of (Mask a A) -> lanes_of (Mask a A) = lanes_of (Simd b B) ->
    (init_from_cvt l sum boolty conv c const_arg (Mask a A) (Simd b B) x = Ok r <->
     converted conv boolty (Mask a A) (Simd b B) x r).
Proof. intros. now apply mask_to_simd. Qed.
Print Assumptions C68_mask_to_simd.

(** An arithmetic value initialises a mask directly, by its conversion to bool. *)
Theorem C68_direct_mask :
  forall (V : Type) l sum boolty (conv : arith -> arith -> V -> res V) const_arg a b B x r,
    (0 < lanes_of (Mask b B))%nat ->
    (init_from_cvt l sum boolty conv DirectInit const_arg (Arith a) (Mask b B) x = Ok r <->
     converted conv boolty (Arith a) (Mask b B) x r).
Proof. intros. now apply direct_mask. Qed.
Print Assumptions C68_direct_mask.

Example C68_mask_case :
  ex_init CopyInit false (Mask ty_int (AFixed 3)) (Simd ty_float (AFixed 3)) [1; 0; 1] = Ok [1; 0; 1] /\
  ex_init DirectInit true (Arith ty_int) (Mask ty_float (AFixed 3)) [256] = Ok [1; 1; 1].
Proof. split; reflexivity. Qed.

(** cvt does not change a conversion that x has anyway. *)
Theorem C68_plain_conversions_kept :
  forall (V : Type) l sum boolty (conv : arith -> arith -> V -> res V) c const_arg T U x,
    conv_refl conv -> (0 < lanes_of U)%nat -> length x = lanes_of T ->
    ~ const_copy_of_convertible l sum c const_arg T U -> convertible l sum T U = true ->
    init_from_cvt l sum boolty conv c const_arg T U x = convert_implicitly conv T U x.
Proof. intros. now apply plain_kept'. Qed.
Print Assumptions C68_plain_conversions_kept.

(** The value does not depend on the context, or on whether the cvt is const. *)
Theorem C68_contexts_agree :
  forall (V : Type) l sum boolty (conv : arith -> arith -> V -> res V) c1 k1 c2 k2 T U x,
    (0 < lanes_of U)%nat ->
    init_from_cvt l sum boolty conv c1 k1 T U x <> Stop SIllFormed ->
    init_from_cvt l sum boolty conv c2 k2 T U x <> Stop SIllFormed ->
    init_from_cvt l sum boolty conv c1 k1 T U x = init_from_cvt l sum boolty conv c2 k2 T U x.
Proof. intros. now apply agree. Qed.
Print Assumptions C68_contexts_agree.

(** simd-generic code (README.md 150-152): on simds the conversion does to every lane what the same line
    does to a scalar. *)
Theorem C68_generic :
  forall (V : Type) l sum boolty (conv : arith -> arith -> V -> res V) c k a A b B x r c' k',
    conv_refl conv -> lanes_of (Simd a A) = lanes_of (Simd b B) -> (0 < lanes_of (Simd b B))%nat ->
    length x = lanes_of (Simd a A) -> length r = length x ->
    (init_from_cvt l sum boolty conv c k (Simd a A) (Simd b B) x = Ok r <->
     forall i v w, nth_error x i = Some v -> nth_error r i = Some w ->
       init_from_cvt l sum boolty conv c' k' (Arith a) (Arith b) [v] = Ok [w]).
Proof. intros. now apply generic. Qed.
Print Assumptions C68_generic.

Example C68_generic_case :
  ex_init RefBind false (Simd ty_int (AFixed 2)) (Simd ty_short (AFixed 2)) [65539; 4] = Ok [3; 4] /\
  ex_init CopyInit true (Arith ty_int) (Arith ty_short) [65539] = Ok [3] /\
  convertible ex_l ex_sum (Simd ty_short (AFixed 2)) (Simd ty_long (AFixed 2)) = true /\
  ex_init CopyInit true (Simd ty_short (AFixed 2)) (Simd ty_long (AFixed 2)) [-3; 4] = Ok [-3; 4].
Proof. repeat split; reflexivity. Qed.

(** cvt is needed: without it a simd converts to another simd type only if both are fixed_size with as many
    lanes and no value changes (or if C22's float16_t case applies). *)
Theorem C68_needed_simd :
  forall l sum a A b B, lang_ok l -> aty_ok (a_kind a) -> aty_ok (a_kind b) ->
    (a_id a = a_id b -> a_kind a = a_kind b) ->
    (a_kind a = ABool -> a_kind b = ABool -> a_id a = a_id b) ->
    convertible l sum (Simd a A) (Simd b B) = true ->
    (a_id a = a_id b /\ A = B) \/
    exists n, A = AFixed n /\ B = AFixed n /\
      ((forall m e, has_value (a_kind a) m e -> has_value (a_kind b) m e) \/
       exists p emax t, a_kind a = AFloat p emax /\ a_kind b = AInt t /\ sgn t = true /\ emax < bits t - 1).
Proof. exact implicit_simd. Qed.
Print Assumptions C68_needed_simd.

(** The same for a scalar; int, and unsigned int to unsigned types, always convert. *)
Theorem C68_needed_scalar :
  forall l sum a b B, lang_ok l -> aty_ok (a_kind a) -> aty_ok (a_kind b) ->
    (a_id a = a_id b -> a_kind a = a_kind b) ->
    (a_kind a = ABool -> a_kind b = ABool -> a_id a = a_id b) ->
    convertible l sum (Arith a) (Simd b B) = true ->
    a_id a = id_int \/ (a_id a = id_unsigned /\ is_unsigned_ty (a_kind b) = true) \/
    (forall m e, has_value (a_kind a) m e -> has_value (a_kind b) m e) \/
    exists p emax t, a_kind a = AFloat p emax /\ a_kind b = AInt t /\ sgn t = true /\ emax < bits t - 1.
Proof. exact implicit_broadcast. Qed.
Print Assumptions C68_needed_scalar.

Example C68_needed_case :
  convertible ex_l ex_sum (Simd ty_int (AFixed 4)) (Simd ty_float (AFixed 4)) = false /\
  convertible ex_l ex_sum (Simd ty_float (AFixed 4)) (Simd ty_int (AFixed 4)) = false /\
  convertible ex_l ex_sum (Simd ty_short (AFixed 4)) (Simd ty_int (AFixed 4)) = true /\
  convertible ex_l ex_sum (Simd ty_short AScalar) (Simd ty_int AScalar) = false /\
  convertible ex_l ex_sum (Arith ty_float) (Simd ty_int (AFixed 4)) = false /\
  convertible ex_l ex_sum (Arith ty_short) (Simd ty_float (AFixed 4)) = true.
Proof. repeat split; reflexivity. Qed.
