(** vir::transform with a callable that keeps state, may throw and need not work lane by lane.  The control flow is
    that of [transform] (TransformModel.v). *)
From Verif Require Import Base ExecModel TransformModel ThrowModel.

Section Run.
  Context {T St : Type}.
  (** The callable: a new state, and the result unless it throws. *)
  Variable op : St -> list (list T) -> St * option (list T).
  (** The calls of fun0 in detail.h:278 are arguments of one function call, so that the order in which they are
      evaluated is unspecified, and may differ from step to step. *)
  Variable order : step -> list nat.

  (** fun0 for the chunks [js] of a step one after the other, simd_execution.h:777-780 with 618-624: state and trace
      (the arguments of the calls that returned), and the results. *)
  Fixpoint invoke_in (m : mem T) (srcs : list Z) (k : Z) (js : list nat) (st : St) (tr : list (list (list T)))
    : res (ended (St * list (list (list T)) * list (nat * list T)) (list (list T))) :=
    match js with
    | [] => Ok (Returned (st, tr, []))
    | j :: js' =>
        bindR (mapR (fun p => of_option (load m p (Z.to_nat k))) (adv (k * Z.of_nat j) srcs)) (fun chunks =>
        match op st chunks with
        | (st', None) => Ok (Threw (st', tr, []) chunks)
        | (st', Some r) =>
            bindR (invoke_in m srcs k js' st' (tr ++ [chunks])) (fun e =>
            match e with
            | Threw s ch => Ok (Threw s ch)
            | Returned (st'', tr', rs) => Ok (Returned (st'', tr', (j, r) :: rs))
            end)
        end)
    end.

  (** The parameter pack r0s, detail.h:276. *)
  Definition lookup (j : nat) (rs : list (nat * list T)) : option (list T) :=
    option_map snd (find (fun q => Nat.eqb (fst q) j) rs).
  Definition pack (rs : list (nat * list T)) (n : nat) : res (list (list T)) :=
    mapR (fun j => of_option (lookup j rs)) (seq 0 n).

  (** unroll2, detail.h:270-280: fun1 stores the results in ascending order (277) when all of them are there. *)
  Definition run_step_in (c : cfg) (s : state T St) (x : step) : res (ended (state T St) (list (list T))) :=
    bindR (invoke_in (s_mem s) (t_srcs x) (t_k x) (order x) (s_st s) (s_trace s)) (fun e =>
    match e with
    | Threw (st', tr', _) ch => Ok (Threw (mkst (s_mem s) st' tr') ch)
    | Returned (st', tr', rs) =>
        bindR (pack rs (t_n x)) (fun outs =>
        bindR (store_chunks c (s_mem s) (t_al x) (t_dst x) (t_k x) outs) (fun m' =>
        Ok (Returned (mkst m' st' tr'))))
    end).

  Fixpoint run_steps_in (c : cfg) (s : state T St) (l : list step) : res (ended (state T St) (list (list T))) :=
    match l with
    | [] => Ok (Returned s)
    | x :: l' => bindR (run_step_in c s x) (fun e =>
                 match e with
                 | Threw s' ch => Ok (Threw s' ch)
                 | Returned s' => run_steps_in c s' l'
                 end)
    end.

  (** detail::transform, simd_execution.h:710-806: the end state, with the returned iterator unless an exception
      leaves the algorithm. *)
  Definition run_transform_in (c : cfg) (pol : policy) (w first last dst : Z) (srcs2 : list Z) (m : mem T) (st : St)
    : res (ended (state T St) (list (list T)) * option Z) :=
    let (steps, r) := transform c pol w first last dst srcs2 in
    bindR (run_steps_in c (mkst m st []) steps) (fun e =>
    match e with
    | Threw _ _ => Ok (e, None)
    | Returned _ => bindR r (fun d => Ok (e, Some d))
    end).
End Run.
