(** Property theorems C85: function objects with state of their own. *)
From Verif Require Import Base ExecModel ExecSpec ExecExamples TransformModel TransformSpec TransformExamples ScheduleSpec
  ThrowModel CallsModel CallsSpec CallsThm CallsExamples RCallsModel RThrowModel TReduceExamples
  OwnStateModel OwnStateSpec OwnStateProofs OwnStateExamples.

(** C85, transform with iterators or ranges: as if with a callable that has no state inside, the object frozen as it was
    passed; same memory, same calls, same exception, same undefined behaviour, without any precondition. *)
Theorem C85_transform_frozen :
  forall (T S W : Type) (op : S * W -> list (list T) -> (S * W) * option (list T)) w0 order
         c pol w first last dst srcs2 (m : mem T) s,
    transform_object Ranges op order c pol w first last dst srcs2 m (s, w0)
    = match run_transform_in (frozen op w0) order c pol w first last dst srcs2 m s with
      | Ok (e, r) => Ok (beside_end w0 e, r)
      | Stop e => Stop e
      end.
Proof. exact @transform_copies. Qed.
Print Assumptions C85_transform_frozen.

(** With the preconditions of C73: the calls, each answered by the object as it was passed. *)
Theorem C85_transform_calls :
  forall (T S W : Type) (op : S * W -> list (list T) -> (S * W) * option (list T)) order
         c pol w first last dst srcs2 (m : mem T) s w0 d,
    target_ok c -> c_ce c = false -> policy_ok pol -> width_ok w -> range_ok first last ->
    size_matches pol w first last -> reaches_alignment c pol w dst (dst + (last - first)) ->
    prologue_length c pol w dst (last - first) d ->
    keeps_count op -> any_order order ->
    Forall (fun p => mapped m p (p + (last - first))) (dst :: first :: srcs2) ->
    no_clobber dst (last - first) (first :: srcs2) ->
    exists e, transform_object Ranges op order c pol w first last dst srcs2 m (s, w0)
        = Ok (beside_end w0 e, returned_iterator (dst + (last - first)) e)
      /\ account (frozen op w0) m (first :: srcs2) dst s (places 0 (schedule w (p_unroll pol) d (last - first))) e.
Proof. exact @ranges_calls. Qed.
Print Assumptions C85_transform_calls.

(** An object that has all its state inside: the order of the calls cannot be seen in the output (compare
    C73_ascending_refuted for state outside). *)
Theorem C85_order_unobservable :
  forall (T W : Type) (op : unit * W -> list (list T) -> (unit * W) * option (list T)) order order'
         c pol w first last dst srcs2 (m : mem T) w0,
    target_ok c -> c_ce c = false -> policy_ok pol -> width_ok w -> range_ok first last ->
    size_matches pol w first last -> reaches_alignment c pol w dst (dst + (last - first)) ->
    keeps_count op -> any_order order -> any_order order' ->
    Forall (fun p => mapped m p (p + (last - first))) (dst :: first :: srcs2) ->
    no_clobber dst (last - first) (first :: srcs2) ->
    exists e e' r, transform_object Ranges op order c pol w first last dst srcs2 m (tt, w0) = Ok (e, r)
      /\ transform_object Ranges op order' c pol w first last dst srcs2 m (tt, w0) = Ok (e', r) /\ same_end e e'.
Proof. exact @ranges_order_unobservable. Qed.
Print Assumptions C85_order_unobservable.

(** C85, transform with a zip_view: all calls are made on one object. *)
Theorem C85_zip_calls :
  forall (T S W : Type) (op : S * W -> list (list T) -> (S * W) * option (list T)) order
         c pol w first last dst srcs2 (m : mem T) st d,
    target_ok c -> c_ce c = false -> policy_ok pol -> width_ok w -> range_ok first last ->
    size_matches pol w first last -> reaches_alignment c pol w dst (dst + (last - first)) ->
    prologue_length c pol w dst (last - first) d ->
    keeps_count op -> any_order order ->
    Forall (fun p => mapped m p (p + (last - first))) (dst :: first :: srcs2) ->
    no_clobber dst (last - first) (first :: srcs2) ->
    exists e, transform_object Zipped op order c pol w first last dst srcs2 m st
        = Ok (e, returned_iterator (dst + (last - first)) e)
      /\ account op m (first :: srcs2) dst st (places 0 (schedule w (p_unroll pol) d (last - first))) e.
Proof. exact (fun T S W => @transform_calls T (S * W)). Qed.
Print Assumptions C85_zip_calls.

(** The overloads of transform do not agree: one object, two ranges of 8 elements in two chunks; with iterators the
    second chunk is answered like the first, with zip the object has advanced. *)
Theorem C85_overloads_agree_refuted :
  exists c pol w first last dst (m : mem Z) order s s' r,
    target_ok c /\ c_ce c = false /\ policy_ok pol /\ width_ok w /\ range_ok first last
    /\ size_matches pol w first last /\ reaches_alignment c pol w dst (dst + (last - first))
    /\ keeps_count (own_number (S := unit)) /\ any_order order
    /\ Forall (fun p => mapped m p (p + (last - first))) [dst; first; 1000]
    /\ no_clobber dst (last - first) [first; 1000]
    /\ transform_object Ranges own_number order c pol w first last dst [1000] m (tt, 0) = Ok (Returned s, r)
    /\ transform_object Zipped own_number order c pol w first last dst [1000] m (tt, 0) = Ok (Returned s', r)
    /\ s_mem s (dst + 4) = Some 0 /\ s_mem s' (dst + 4) = Some 1.
Proof. exact overloads_differ. Qed.
Print Assumptions C85_overloads_agree_refuted.

(** C85, transform_reduce: as if with transform_op frozen as it was passed. *)
Theorem C85_transform_reduce_frozen :
  forall (T A S W : Type) (EO : eval_order) (rop : S -> list A -> list A -> S * option (list A)) (sop : S -> A -> A -> S * option A)
         (tr : S * W -> list (list T) -> (S * W) * option (list A)) c pol w first last srcs2 (m : mem T) init s w0,
    transform_reduce_object c rop sop tr m pol w first last srcs2 init (s, w0)
    = (let '(es, s', r) := transform_reduce_throwing c rop sop (frozen tr w0) m pol w first last srcs2 init s in
       (es, (s', w0), r)).
Proof. exact @transform_reduce_copies. Qed.
Print Assumptions C85_transform_reduce_frozen.

(** 11 elements, width 4, unroll_by<2>; the object starts with 7.  With iterators in both orders all calls give 7; with zip
    the calls are numbered.  transform_reduce over 20 elements: 20 times 7. *)
Example C85_cases :
  own_obs 2000 11 (transform_object Ranges own_number ltr (ex_cfg 0 false false) (pol_unroll 2) 4 0 11 2000 [1000] (ex_mem3 11) (tt, 7))
  = Some (7, Some [7; 7; 7; 7; 7; 7; 7; 7; 7; 7; 7])
  /\ own_obs 2000 11 (transform_object Ranges own_number rtl (ex_cfg 0 false false) (pol_unroll 2) 4 0 11 2000 [1000] (ex_mem3 11) (tt, 7))
  = Some (7, Some [7; 7; 7; 7; 7; 7; 7; 7; 7; 7; 7])
  /\ own_obs 2000 11 (transform_object Zipped own_number ltr (ex_cfg 0 false false) (pol_unroll 2) 4 0 11 2000 [1000] (ex_mem3 11) (tt, 7))
  = Some (11, Some [7; 7; 7; 7; 8; 8; 8; 8; 9; 9; 10])
  /\ snd (transform_reduce_object (ex_cfg 4 false false) own_sum own_scalar own_number full_mem pol_aligned 8 0 20 [] 0 (EO := fun _ => true)
            (0%nat, 7)) = Ends (Ok 140)
  /\ keeps_count (own_number (S := unit)).
Proof. repeat split; try (vm_compute; reflexivity). apply own_number_keeps. Qed.
