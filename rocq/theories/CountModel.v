(** Model of vir::count_if, vir/simd_execution.h:1493-1522.

    The counters are C++ ints: [res Z], where signed overflow is [Stop SUB].  [lib] is the
    preprocessor condition of line 1503 (libstdc++'s simd rather than vir's fallback). *)
From Verif Require Import Base ExecModel ReduceModel.

Definition int_max : Z := 2 ^ 31 - 1.

(** Signed addition of ints. *)
Definition int_add (a b : res Z) : res Z :=
  bindR a (fun x => bindR b (fun y =>
  if (- int_max - 1 <=? x + y) && (x + y <=? int_max) then Ok (x + y) else Stop SUB)).

(** popcount(mask). *)
Definition mask_count (k : list bool) : Z := Z.of_nat (length (filter (fun b => b) k)).

(** [++where(k, v)]: increment of the selected lanes; mask and vector have equal width. *)
Fixpoint where_inc (k : list bool) (v : list (res Z)) : list (res Z) :=
  match k, v with
  | [], [] => []
  | b :: k', x :: v' => (if b then int_add x (Ok 1) else x) :: where_inc k' v'
  | _, _ => [Stop SIllFormed]
  end.

Section Count.
  Context {T : Type}.
  Variable pred : list T -> list bool.

  Record counters : Type := mkcnt { n_count : res Z; n_countv : list (res Z) }.

  (** The lambda, simd_execution.h:1502-1519; vir::cvt converts the mask type only. *)
  Definition count_step (ce lib : bool) (w : Z) (st : counters) (chunks : list (list T)) : counters :=
    if ce && lib
    then mkcnt (int_add (n_count st)
                  (match chunks with
                   | [] => Stop SIllFormed
                   | x :: r => fold_left int_add (map (fun y => Ok (mask_count (pred y))) r)
                                         (Ok (mask_count (pred x)))
                   end)) (n_countv st)
    else match chunks with
         | [x] => if Z.of_nat (length x) =? w
                  then mkcnt (n_count st) (where_inc (pred x) (n_countv st))
                  else mkcnt (int_add (n_count st) (Ok (mask_count (pred x)))) (n_countv st)
         | _ => mkcnt (n_count st) (fold_left (fun v x => where_inc (pred x) v) chunks (n_countv st))
         end.

  (** The lambda takes its arguments by value: no write-back. *)
  Definition count_fun (ce lib : bool) (w : Z) (st : counters) (chunks : list (list T))
    : counters * list (list T) := (count_step ce lib w st chunks, chunks).

  (** count_if, simd_execution.h:1493-1522. *)
  Definition count_if (c : cfg) (lib : bool) (pol : policy) (w first last : Z) (m : mem T) : res Z :=
    bindR (run_for_each (count_fun (c_ce c) lib w) c pol w false first last m
                        (mkcnt (Ok 0) (repeat (Ok 0) (Z.to_nat w)))) (fun s =>
    int_add (n_count (s_st s))
            (match reduce int_add (n_countv (s_st s)) with
             | Some x => x
             | None => Stop SIllFormed
             end)).
End Count.
