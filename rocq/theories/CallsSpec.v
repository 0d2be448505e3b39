(** Specification vocabulary for C73: the calls transform makes. *)
From Verif Require Import Base ExecModel ExecSpec TransformModel ThrowModel.
From Coq Require Import Permutation.

(** The chunks are elements [i, i+k) of the ranges. *)
Definition given {T} (m : mem T) (srcs : list Z) (i k : Z) (chunks : list (list T)) : Prop :=
  Forall2 (fun p ch => range_is m (p + i) (p + i + k) ch) srcs chunks.

(** Called with chunks of k lanes, the callable returns k lanes if it returns. *)
Definition keeps_count {T St} (op : St -> list (list T) -> St * option (list T)) : Prop :=
  forall st k chunks r, chunks <> [] -> Forall (fun ch => length ch = k) chunks ->
    snd (op st chunks) = Some r -> length r = k.

(** A call that returned: place and number of lanes, chunks and result. *)
Definition answer (T : Type) : Type := ((Z * Z) * (list (list T) * list T))%type.

(** Starting in [st], the callable answers these calls in this order and is in state [st'] then. *)
Inductive answers {T St} (op : St -> list (list T) -> St * option (list T)) : St -> list (answer T) -> St -> Prop :=
| answers_none st : answers op st [] st
| answers_more st st1 st' at_ ch r qs :
    op st ch = (st1, Some r) -> answers op st1 qs st' -> answers op st ((at_, (ch, r)) :: qs) st'.

(** Consecutive places for groups of chunks of the given sizes, from element [i] on. *)
Fixpoint place_group (i : Z) (sizes : list nat) : list (Z * Z) :=
  match sizes with [] => [] | k :: l => (i, Z.of_nat k) :: place_group (i + Z.of_nat k) l end.
Fixpoint places (i : Z) (groups : list (list nat)) : list (list (Z * Z)) :=
  match groups with [] => [] | g :: l => place_group i g :: places (i + Z.of_nat (list_sum g)) l end.

(** Each call was given the elements at its place, and returned as many lanes. *)
Definition faithful {T} (m : mem T) (srcs : list Z) (qs : list (answer T)) : Prop :=
  Forall (fun q => given m srcs (fst (fst q)) (snd (fst q)) (fst (snd q))
                   /\ Z.of_nat (length (snd (snd q))) = snd (fst q)) qs.

(** In m' every result is at its place of the output, all else is as in m. *)
Definition written {T} (m m' : mem T) (dst : Z) (qs : list (answer T)) : Prop :=
  Forall (fun q => range_is m' (dst + fst (fst q)) (dst + fst (fst q) + snd (fst q)) (snd (snd q))) qs
  /\ forall a, (forall q, In q qs -> ~ (dst + fst (fst q) <= a < dst + fst (fst q) + snd (fst q))) -> m' a = m a.

(** Some order of the calls in each step. *)
Definition any_order (order : step -> list nat) : Prop := forall x, Permutation (order x) (seq 0 (t_n x)).

(** The callable answers without looking at its state. *)
Definition stateless {T St} (op : St -> list (list T) -> St * option (list T)) : Prop :=
  forall st st' ch, snd (op st ch) = snd (op st' ch).

(** ** What becomes of a run, for groups of places [ps] *)
(** Group after group is called, in each group in some order.  The results of the groups that are complete are in the
    output; a call that throws ends the run, and the results of the other calls in its group are lost. *)
Definition account {T St} (op : St -> list (list T) -> St * option (list T)) (m : mem T) (srcs : list Z) (dst : Z)
    (st : St) (ps : list (list (Z * Z))) (e : ended (state T St) (list (list T))) : Prop :=
  match e with
  | Returned s => exists css,
      Forall2 (fun g qs => Permutation (map fst qs) g) ps css
      /\ faithful m srcs (concat css) /\ answers op st (concat css) (s_st s)
      /\ s_trace s = map (fun q => fst (snd q)) (concat css)
      /\ written m (s_mem s) dst (concat css)
  | Threw s ch => exists before group after css part i k rest st0,
      ps = before ++ group :: after
      /\ Forall2 (fun g qs => Permutation (map fst qs) g) before css
      /\ Permutation (map fst part ++ (i, k) :: rest) group
      /\ faithful m srcs (concat css ++ part) /\ answers op st (concat css ++ part) st0
      /\ given m srcs i k ch /\ op st0 ch = (s_st s, None)
      /\ s_trace s = map (fun q => fst (snd q)) (concat css ++ part)
      /\ written m (s_mem s) dst (concat css)
  end.

(** Place after place is called; the results of all calls that returned are in the output. *)
Definition account_in_order {T St} (op : St -> list (list T) -> St * option (list T)) (m : mem T) (srcs : list Z)
    (dst : Z) (st : St) (ps : list (Z * Z)) (e : ended (state T St) (list (list T))) : Prop :=
  match e with
  | Returned s => exists qs,
      map fst qs = ps /\ faithful m srcs qs /\ answers op st qs (s_st s)
      /\ s_trace s = map (fun q => fst (snd q)) qs /\ written m (s_mem s) dst qs
  | Threw s ch => exists qs i k after st0,
      ps = map fst qs ++ (i, k) :: after /\ faithful m srcs qs /\ answers op st qs st0
      /\ given m srcs i k ch /\ op st0 ch = (s_st s, None)
      /\ s_trace s = map (fun q => fst (snd q)) qs /\ written m (s_mem s) dst qs
  end.

(** The iterator behind the output, unless the callable threw. *)
Definition returned_iterator {S X : Type} (d : Z) (e : ended S X) : option Z :=
  match e with Returned _ => Some d | Threw _ _ => None end.
(** Both returned or both threw, with the same memory. *)
Definition same_end {T St X : Type} (e e' : ended (state T St) X) : Prop :=
  match e, e' with
  | Returned s, Returned s' | Threw s _, Threw s' _ => forall a, s_mem s a = s_mem s' a
  | _, _ => False
  end.
