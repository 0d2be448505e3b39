(** Property theorems C67: precondition checks. *)
From Coq Require Import String.
From Verif Require Import Base PreModel PreSpec PreProofs ExecModel ExecSpec TransformModel
  TReduceModel.
#[local] Open Scope string_scope.
#[local] Open Scope Z_scope.

(** C67: a precondition that holds costs nothing and is never diagnosed. *)
Theorem C67_satisfied_is_silent :
  forall b known k,
    header_ok b = true ->
    run_check b known true k = Runs false EContinue /\ consteval_check b true = Runs false EContinue.
Proof. exact satisfied_silent. Qed.
Print Assumptions C67_satisfied_is_silent.

(** The run-time column of README.md 593-600 holds exactly if the macro is defined by the user and, for
    levels 2 and 3, the compiler defines __GNUC__. *)
Theorem C67_action_iff :
  forall b k text,
    level_valid (b_level b) -> header_ok b = true ->
    printf (check_format k) (check_args k) = PText text ->
    (exists a e, documented_action (documented_level (b_level b)) = Some a
       /\ run_check b false false k = Runs false e /\ acts e a text)
    <-> exists l, b_level b = Some l /\ (l < 2 \/ 4 <= l \/ exists v, b_gnuc b = Some v).
Proof. exact action_iff. Qed.
Print Assumptions C67_action_iff.

(** The documented default, 3, is not what a program without the macro gets: simd.h evaluates
    VIR_CHECK_PRECONDITIONS in lines 69 and 71, above the default of line 96. *)
Theorem C67_default_refuted :
  documented_action (documented_level None) = Some ATrap
  /\ forall b k, b_level b = None -> run_check b false false k = Runs false EUndefined.
Proof. split; [reflexivity|exact default_undefined]. Qed.
Print Assumptions C67_default_refuted.

(** The compile-time column holds exactly for clang and GCC from version 10 on. *)
Theorem C67_diagnosis_iff :
  forall b k,
    level_valid (b_level b) -> header_ok b = true ->
    (exists d, documented_diagnosis (documented_level (b_level b)) = Some d
       /\ shows (run_check b true false k) d)
    <-> b_clang b = true \/ exists v, b_gnuc b = Some v /\ 10 <= v.
Proof. exact diagnosis_iff. Qed.
Print Assumptions C67_diagnosis_iff.

(** A failure that only got a warning at compile time does what the run-time column says at level 0
    and (with __GNUC__) at level 2; at level 4 nothing is printed. *)
Theorem C67_known_action_iff :
  forall b k text,
    header_ok b = true -> diagnosing b = true -> documented_diagnosis (level_late b) = Some DWarning ->
    (exists a e, documented_action (documented_level (b_level b)) = Some a
       /\ run_check b true false k = Runs true e /\ acts e a text)
    <-> level_late b = 0 \/ (level_late b = 2 /\ exists v, b_gnuc b = Some v).
Proof. exact known_action_iff. Qed.
Print Assumptions C67_known_action_iff.

Theorem C67_known_not_printed_refuted :
  forall b k,
    b_level b = Some 4 -> b_stdio b = true -> (b_clang b = true \/ exists v, b_gnuc b = Some v /\ 10 <= v) ->
    exists e, run_check b true false k = Runs true e /\ (e = ETrap \/ e = EAbort).
Proof. exact known_four. Qed.
Print Assumptions C67_known_not_printed_refuted.

(** simd.h compiles exactly if the printing variant is not selected or std::fprintf has been declared
    before; simd.h does not include cstdio for it. *)
Theorem C67_header_iff :
  forall b,
    header_ok b = true <->
    match b_level b with
    | None => True
    | Some l => l < 2 \/ (l < 4 /\ exists v, b_gnuc b = Some v) \/ b_stdio b = true
    end.
Proof. exact header_iff. Qed.
Print Assumptions C67_header_iff.

(** In constant evaluation a failure is an error at every documented level. *)
Theorem C67_consteval :
  forall b,
    header_ok b = true ->
    (consteval_check b false = Rejected <-> 0 <= documented_level (b_level b))
    /\ (documented_level (b_level b) < 0 -> consteval_check b false = Runs false EContinue).
Proof. exact consteval_iff. Qed.
Print Assumptions C67_consteval.

Theorem C67_negative_off :
  forall b known cond k,
    documented_level (b_level b) < 0 -> run_check b known cond k = Runs false EContinue.
Proof. exact negative_off. Qed.
Print Assumptions C67_negative_off.

(** The message of a failed subscript, for every position, size and function name, and the messages of
    find_first_set and find_last_set *)
Theorem C67_subscript_message :
  forall file line func n i,
    percent_free file ->
    printf (check_format (subscript_check file line func n i))
           (check_args (subscript_check file line func n i))
    = PText (error_text file line func (subscript_text n i) "i < size()").
Proof. exact subscript_message. Qed.
Print Assumptions C67_subscript_message.

Theorem C67_empty_mask_message :
  forall file line func scalar first,
    percent_free file ->
    printf (check_format (empty_check file line func scalar first))
           (check_args (empty_check file line func scalar first))
    = PText (error_text file line func
               (if first then "find_first_set(empty mask) is UB" else "find_last_set(empty mask) is UB")
               (if scalar then "k[0]" else "any_of(k)")).
Proof. exact empty_message_text. Qed.
Print Assumptions C67_empty_mask_message.

(** The message of assume_matching_size has undefined behaviour: the spelling of the condition,
    distance % size == 0, becomes part of the format, and "% s" asks for a string that is not passed. *)
Theorem C67_matching_message_refuted :
  forall file line func d w,
    percent_free file ->
    printf (check_format (matching_check file line func d w))
           (check_args (matching_check file line func d w)) = PUndefined.
Proof. exact matching_undefined. Qed.
Print Assumptions C67_matching_message_refuted.

(** Hence a violated assume_matching_size() (C10) traps at levels 2 and 3 with __GNUC__, and is
    undefined in all other configurations: no level prints the error. *)
Theorem C67_mismatch_effect :
  forall (T St A : Type) (f : St -> list (list T) -> St * list (list T))
         (opv : list (list T) -> list T) (tr : list (list T) -> list A) (op : A -> A -> A)
         c pol w wb first last dst srcs2 (m : mem T) st init b file line func,
    p_match pol = true -> width_ok w -> range_ok first last -> (forall n, last - first <> n * w) ->
    percent_free file -> header_ok b = true -> level_valid (b_level b) ->
    run_for_each f c pol w wb first last m st = Stop STrap
    /\ run_transform opv c pol w first last dst srcs2 m = Stop STrap
    /\ transform_reduce c op tr m pol w first last srcs2 init = Stop STrap
    /\ run_check b false ((last - first) mod w =? 0) (matching_check file line func (last - first) w)
       = Runs false (match b_level b, b_gnuc b with
                     | Some 2, Some _ | Some 3, Some _ => ETrap
                     | _, _ => EUndefined
                     end).
Proof. exact @mismatch_effect. Qed.
Print Assumptions C67_mismatch_effect.

(** GCC 12: subscript 9 of 8 lanes *)
Example C67_instance :
  let k := subscript_check "vir/simd.h" 1630 "operator[]" 8 9 in
  let gcc l := mkbuild l (Some 12) false true in
  run_check (gcc (Some 3)) false false k = Runs false ETrap
  /\ run_check (gcc (Some 4)) false false k
     = Runs false (EPrintAbort ("vir/simd.h:1630: precondition failure in 'operator[]': Subscript 9 is out of"
         ++ " range [0, 7] ('i < size()' does not hold)" ++ newline))
  /\ run_check (gcc None) false false k = Runs false EUndefined
  /\ run_check (gcc None) true false k = Rejected
  /\ run_check (gcc (Some 4)) true false k = Runs true ETrap
  /\ run_check (mkbuild (Some 4) (Some 12) false false) false true k = Rejected
  /\ run_check (gcc (Some 5)) false (11 mod 4 =? 0) (matching_check "vir/simd_execution.h" 1126 "for_each" 11 4)
     = Runs false EUndefined.
Proof. repeat split; vm_compute; reflexivity. Qed.
