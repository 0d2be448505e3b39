(** Model of vir::count_if over a range of structs: simd_execution.h:1493-1522 with [vir::for_each] as in
    StructRunModel. *)
From Verif Require Import Base ExecModel ReduceModel CountModel SimdizeModel StructRunModel.

Section StructCount.
  Context {W : Type}.
  Variable zero : W.

  (** The callable: an object to a mask. *)
  Variable pred : list (list W) -> list bool.

  (** x.size(), simdize.h 385 and 540: the N of the type, the number of lanes of every member. *)
  Definition obj_size (o : list (list W)) : Z := match o with [] => 0 | v :: _ => Z.of_nat (length v) end.

  (** The lambda, simd_execution.h:1502-1519, as CountModel.count_step. *)
  Definition struct_count_step (ce lib : bool) (w : Z) (st : counters) (objs : list (list (list W))) : counters :=
    if ce && lib
    then mkcnt (int_add (n_count st)
                  (match objs with
                   | [] => Stop SIllFormed
                   | x :: r => fold_left int_add (map (fun y => Ok (mask_count (pred y))) r)
                                         (Ok (mask_count (pred x)))
                   end)) (n_countv st)
    else match objs with
         | [x] => if obj_size x =? w
                  then mkcnt (n_count st) (where_inc (pred x) (n_countv st))
                  else mkcnt (int_add (n_count st) (Ok (mask_count (pred x)))) (n_countv st)
         | _ => mkcnt (n_count st) (fold_left (fun v x => where_inc (pred x) v) objs (n_countv st))
         end.

  (** The lambda takes its arguments by value: no write-back. *)
  Definition struct_count_fun (ce lib : bool) (w : Z) (st : counters) (objs : list (list (list W)))
    : counters * list (list (list W)) := (struct_count_step ce lib w st objs, objs).

  (** count_if, simd_execution.h:1493-1522. *)
  Definition struct_count_if (kd : skind) (k : Z) (c : cfg) (lib : bool) (pol : policy) (w first last : Z)
             (m : mem W) : res Z :=
    bindR (struct_for_each zero (struct_count_fun (c_ce c) lib w) kd k c pol w false first last m
                           (mkcnt (Ok 0) (repeat (Ok 0) (Z.to_nat w)))) (fun s =>
    int_add (n_count (ss_st s))
            (match reduce int_add (n_countv (ss_st s)) with
             | Some x => x
             | None => Stop SIllFormed
             end)).
End StructCount.
