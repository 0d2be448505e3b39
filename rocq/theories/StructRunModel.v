(** Model of [vir::for_each] over a range of structs: the control flow of ExecModel with the load
    constructors and [copy_to] of the types [vir::simdize] gives a struct.

    One memory of words, a word being one scalar member (as in SimdizeModel): struct [i] of the array is
    the [k] words from [k * i] on, [k] being flat_member_count.  Both types take the flags argument and
    ignore it (simdize.h 458-467, 486-493, 907-912, 925-929), so [k_al] plays no role here. *)
From Verif Require Import Base PermuteModel SimdizeModel ExecModel.

(** vectorized_struct<T, N> (a template whose arguments are replaced, simdize.h 516-979) or
    simd_tuple<T, N> (367-494).  [se n]: the environment of load and store for [n] lanes. *)
Inductive skind : Type := KVectorized (se : Z -> senv) | KTuple.

Section StructRun.
  Context {W St : Type}.
  Variable zero : W.

  (** An object: its members, each a list of lanes. *)
  Definition obj : Type := list (list W).

  (** V(ptr, flags): simdize.h 907-912 (_load_elements_via_permute) and 458-467.  No indeterminate lane is
      left (C31); if one were, the first use of the object would be undefined. *)
  Definition obj_load (kd : skind) (m : mem W) (pos k n : Z) : res obj :=
    match kd with
    | KVectorized se => bindR (load_elements zero (se n) m (k * pos) k n)
                              (mapR (mapR (fun l => of_option (lane_val l))))
    | KTuple => tuple_load m (k * pos) k n
    end.

  (** copy_to(ptr, flags): simdize.h 925-929 (_store_elements_via_permute) and 486-493. *)
  Definition obj_store (kd : skind) (o : obj) (m : mem W) (pos k n : Z) : res (mem W) :=
    match kd with
    | KVectorized se => store_elements (se n) o m (k * pos) k n
    | KTuple => tuple_store o (k * pos) k 0 (Z.to_nat n) m
    end.

  (** The callable: gets the objects of one invocation, may keep state, leaves new values in them. *)
  Variable f : St -> list obj -> St * list obj.

  (** V(ptr + V::size() * Is, f)..., simd_execution.h:59 *)
  Fixpoint load_objs (kd : skind) (m : mem W) (pos k n : Z) (u : nat) : res (list obj) :=
    match u with
    | O => Ok []
    | S u' => bindR (obj_load kd m pos k n) (fun o =>
              bindR (load_objs kd m (pos + n) k n u') (fun os => Ok (o :: os)))
    end.

  (** (chunks.copy_to(ptr + V::size() * Is, f), ...), simd_execution.h:58 *)
  Fixpoint store_objs (kd : skind) (m : mem W) (pos k n : Z) (os : list obj) : res (mem W) :=
    match os with
    | [] => Ok m
    | o :: os' => bindR (obj_store kd o m pos k n) (fun m' => store_objs kd m' (pos + n) k n os')
    end.

  Record sstate : Type := mkss { ss_mem : mem W; ss_st : St; ss_trace : list (list obj) }.

  (** simd_load_and_invoke, simd_execution.h:50-60 *)
  Definition struct_invoke (kd : skind) (k : Z) (write_back : bool) (s : sstate) (c : call) : res sstate :=
    bindR (load_objs kd (ss_mem s) (k_pos c) k (k_k c) (k_n c)) (fun chunks =>
    let (st', out) := f (ss_st s) chunks in
    bindR (if write_back then store_objs kd (ss_mem s) (k_pos c) k (k_k c) out else Ok (ss_mem s)) (fun m' =>
    Ok (mkss m' st' (ss_trace s ++ [chunks])))).

  Fixpoint struct_run (kd : skind) (k : Z) (write_back : bool) (l : list call) (s : sstate) : res sstate :=
    match l with
    | [] => Ok s
    | c :: l' => bindR (struct_invoke kd k write_back s c) (struct_run kd k write_back l')
    end.

  (** vir::for_each, simd_execution.h:1110-1172, with V = simdize<T, w>; [cfg] holds sizeof(T), the address
      of the array and memory_alignment, which is alignof(T) for both types (simdize.h 387-388, 542-543;
      simd_execution.h 538-558). *)
  Definition struct_for_each (kd : skind) (k : Z) (c : cfg) (pol : policy) (w : Z) (write_back : bool)
             (first last : Z) (m : mem W) (st : St) : res sstate :=
    let (calls, r) := for_each c pol w first last in
    bindR (struct_run kd k write_back calls (mkss m st [])) (fun s => bindR r (fun _ => Ok s)).
End StructRun.
Arguments sstate : clear implicits.
