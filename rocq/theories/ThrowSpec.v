(** Specification vocabulary for callables that throw. *)
From Verif Require Import Base ExecModel ExecSpec.

(** The callable, starting in [st], has seen the invocations [tr] and returned from each, leaving
    [outs] in its arguments and being in state [st'] now. *)
Inductive told {T St} (f : St -> list (list T) -> St * option (list (list T)))
  : St -> list (list (list T)) -> list (list (list T)) -> St -> Prop :=
| told_nothing st : told f st [] [] st
| told_more st st1 st' ch out tr outs :
    f st ch = (st1, Some out) -> told f st1 tr outs st' -> told f st (ch :: tr) (out :: outs) st'.

(** If it returns, its arguments have as many lanes as before. *)
Definition lanes_kept {T St} (f : St -> list (list T) -> St * option (list (list T))) : Prop :=
  forall st ch out, snd (f st ch) = Some out -> map (@length T) out = map (@length T) ch.

(** If it returns, it has updated each lane with [g]. *)
Definition maps_lanes {T St} (g : T -> T) (f : St -> list (list T) -> St * option (list (list T)))
  : Prop := forall st ch out, snd (f st ch) = Some out -> out = map (map g) ch.

(** Of memory [m], exactly [first,p) has been shown to the callable, in order, which is in state
    [st'] now; if [wb], that part of memory holds what it left in its arguments, and nothing else
    has changed. *)
Definition done_up_to {T St} (f : St -> list (list T) -> St * option (list (list T))) (wb : bool)
           (first p : Z) (m : mem T) (st : St) (tr : list (list (list T))) (m' : mem T) (st' : St)
  : Prop :=
  exists outs, told f st tr outs st'
    /\ range_is m first p (seen tr)
    /\ (wb = true -> range_is m' first p (seen outs))
    /\ (forall a, ~ (wb = true /\ first <= a < p) -> m' a = m a).

(** [opv], where it does not throw, applies [op] lane by lane. *)
Definition lanewise_or_throws {T} (op : list T -> T) (opv : list (list T) -> option (list T))
  : Prop :=
  forall k chunks r, chunks <> [] -> Forall (fun ch => length ch = k) chunks ->
    opv chunks = Some r ->
    length r = k /\
    forall i args, Forall2 (fun ch x => nth_error ch i = Some x) chunks args ->
                   nth_error r i = Some (op args).
