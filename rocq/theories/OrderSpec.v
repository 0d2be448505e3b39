(** Specification for C69: the grouping in which vir::transform_reduce and vir::reduce combine the
    elements at run time, as a program on lists. It depends on the width, the unroll factor and the
    number of elements in front of the main loop, and on nothing else. No definition below refers
    to the model's functions. *)
From Coq Require Import List Arith ZArith Bool.
From Verif Require Import ScheduleSpec.
Import ListNotations.
#[local] Open Scope nat_scope.

Section Order.
  Context {A : Type}.
  Variable op : A -> A -> A.
  (** [dflt] stands for the combination of no elements, which is never needed. *)
  Variable dflt : A.

  (** From left to right. *)
  Definition fold1 (v : list A) : A := match v with [] => dflt | x :: r => fold_left op r x end.

  (** Lane by lane. *)
  Definition zip (a b : list A) : list A := map (fun p => op (fst p) (snd p)) (combine a b).

  (** The lanes of one simd object: up to three from left to right; otherwise the two halves of the
      largest power of two are combined lane by lane, and what lies behind them comes last.  [k] is
      the logarithm of the number of lanes, or more. *)
  Fixpoint across_below (k : nat) (v : list A) : A :=
    match k with
    | O => fold1 v
    | S h =>
      if (length v <=? 3) then fold1 v
      else if (2 ^ S h <=? length v) then
        let x := across_below h (zip (firstn (2 ^ h) v) (firstn (2 ^ h) (skipn (2 ^ h) v))) in
        match skipn (2 ^ S h) v with
        | [] => x
        | rest => op x (across_below h rest)
        end
      else across_below h v
    end.
  Definition across (v : list A) : A := across_below (Nat.log2 (length v)) v.

  (** The [i]-th chunk of [w] elements. *)
  Definition chunk (w : nat) (l : list A) (i : nat) : list A := firstn w (skipn (i * w) l).

  (** Chunks on top of each other, from first to last. *)
  Definition stack (chunks : list (list A)) : list A :=
    match chunks with [] => [] | c :: cs => fold_left zip cs c end.

  (** [n] accumulators: neighbours first, then neighbours of those, and so on; [k] rounds from
      accumulator [i] on. *)
  Fixpoint pyramid (n : nat) (acc : nat -> list A) (k i : nat) : list A :=
    match k with
    | O => acc i
    | S h =>
      if (i + 2 ^ h <? n) then zip (pyramid n acc h i) (pyramid n acc h (i + 2 ^ h))
      else pyramid n acc h i
    end.

  (** All full chunks.  Unrolling needs two groups of [u] chunks; accumulator [j] then takes chunk [j]
      of every group. *)
  Definition full_chunks (w u : nat) (l : list A) : list A :=
    let q := length l / w in
    if (1 <? u) && (2 * u <=? q) then
      let g := q / u in
      let acc j := stack (map (fun i => chunk w l (i * u + j)) (seq 0 g)) in
      fold_left zip (map (chunk w l) (seq (g * u) (q - g * u))) (pyramid u acc u 0)
    else stack (map (chunk w l) (seq 0 q)).

  Definition halves (k : nat) (v : list A) : list A := zip (firstn (2 ^ k) v) (skipn (2 ^ k) v).

  (** The elements behind the full chunks, onto an accumulator of [2 ^ k] lanes that is halved
      until the elements fit. *)
  Fixpoint tail (k : nat) (total : A) (acc rest : list A) : A :=
    let fits := 2 ^ k <=? length rest in
    let acc' := if fits then zip acc (firstn (2 ^ k) rest) else acc in
    let rest' := if fits then skipn (2 ^ k) rest else rest in
    match rest', k with
    | [], _ => op total (across acc')
    | _, O => dflt
    | _, S h => tail h total (halves h acc') rest'
    end.

  (** The same without full chunks: the largest power of two that fits is the first accumulator. *)
  Fixpoint short (k : nat) (total : A) (rest : list A) : A :=
    if (2 ^ k <=? length rest) then
      let acc := firstn (2 ^ k) rest in
      match skipn (2 ^ k) rest, k with
      | [], _ => op total (across acc)
      | _, O => dflt
      | rest', S h => tail h total (halves h acc) rest'
      end
    else match k with O => dflt | S h => short h total rest end.

  (** Main loop and epilogue; [half] is the logarithm of the largest power of two below [w]. *)
  Definition main (w u : nat) (total : A) (l : list A) : A :=
    let half := Nat.log2 (w - 1) in
    if (w <=? length l) then
      let acc := full_chunks w u l in
      let rest := skipn (length l / w * w) l in
      match rest with
      | [] => op total (across acc)
      | _ =>
        if (2 ^ S half =? w) then tail half total (halves half acc) rest
        else tail half (op total (across (skipn (2 ^ half) acc))) (firstn (2 ^ half) acc) rest
      end
    else short half total l.

  (** Consecutive parts of the given sizes. *)
  Fixpoint parts (sizes : list nat) (l : list A) : list (list A) :=
    match sizes with [] => [] | k :: ks => firstn k l :: parts ks (skipn k l) end.

  (** The first [d] elements, in chunks given by the digits of [d], lowest first. *)
  Definition prologue_total (d : Z) (init : A) (l : list A) : A :=
    fold_left (fun t ch => op t (across ch)) (parts (map (Nat.pow 2) (digits d)) l) init.
End Order.

(** All of it. *)
Definition grouped {A} (op : A -> A -> A) (w u : nat) (d : Z) (init : A) (vals : list A) : A :=
  match vals with
  | [] => init
  | _ => main op init w u (prologue_total op init d init vals) (skipn (Z.to_nat d) vals)
  end.

(** Of [q] rows of [w] elements, column [i]; [x] stands for elements that are not there. *)
Definition column {A} (l : list A) (w q i : nat) (x : A) : list A :=
  map (fun r => nth (r * w + i) l x) (seq 0 q).
