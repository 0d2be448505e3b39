(** Property theorems C83. *)
From Coq Require Import String.
From Verif Require Import Base BenchModel BenchSpec BenchProofs.
#[local] Open Scope string_scope.
#[local] Open Scope list_scope.
#[local] Open Scope Z_scope.

(** C83.  fake_modify keeps all values; the optimiser has to provide every scalar of the arguments and does not know
    its value any more; of all other scalars it knows what it knew before. *)
Theorem C83_modify :
  forall t l r s, fake_modify t l = Ok r ->
    values (run s r) = values s
    /\ (forall x, part_of_some x l -> known (run s r) x = None)
    /\ (forall x, ~ part_of_some x l -> known (run s r) x = known s x)
    /\ (forall x, In x (needed (run s r)) <-> In x (needed s) \/ part_of_some x l).
Proof. exact modify_hides. Qed.
Print Assumptions C83_modify.

(** fake_read needs them and makes nothing unknown. *)
Theorem C83_read :
  forall t l r s, fake_read t l = Ok r ->
    values (run s r) = values s /\ (forall x, known (run s r) x = known s x)
    /\ (forall x, In x (needed (run s r)) <-> In x (needed s) \/ part_of_some x l).
Proof. exact read_needs. Qed.
Print Assumptions C83_read.

Theorem C83_sound :
  forall t l r s, fake_modify t l = Ok r \/ fake_read t l = Ok r -> sound s -> sound (run s r).
Proof. exact modify_sound. Qed.
Print Assumptions C83_sound.

(** The operands are the scalars of the arguments, in order, *)
Theorem C83_in_order :
  forall t l r, fake_modify t l = Ok r \/ fake_read t l = Ok r ->
    concat (map s_scalars r) = concat (map (fun a => scalars_of (a_obj a)) l).
Proof. exact in_argument_order. Qed.
Print Assumptions C83_in_order.

(** so that every scalar is an operand once. *)
Theorem C83_each_once :
  forall t l r x, fake_modify t l = Ok r \/ fake_read t l = Ok r ->
    NoDup (concat (map (fun a => scalars_of (a_obj a)) l)) -> part_of_some x l ->
    count_occ Z.eq_dec (concat (map s_scalars r)) x = 1%nat.
Proof. exact each_once. Qed.
Print Assumptions C83_each_once.

(** fake_read compiles for all objects, fake_modify for those that are not const. *)
Theorem C83_compiles :
  forall t l, (exists r, fake_modify t l = Ok r) <-> forall a, In a l -> a_const a = false.
Proof. exact modify_compiles. Qed.
Print Assumptions C83_compiles.

Theorem C83_read_compiles : forall t l, exists r, fake_read t l = Ok r.
Proof. exact read_compiles. Qed.
Print Assumptions C83_read_compiles.

(** An operand can always be placed: memory and general registers are allowed. *)
Theorem C83_satisfiable :
  forall t l r st, fake_modify t l = Ok r \/ fake_read t l = Ok r -> In st r ->
    In "g" (s_alt st) /\ (In "v" (s_alt st) -> t_x86 t = true) /\ (In "v" (s_alt st) <-> In "x" (s_alt st)).
Proof. exact always_satisfiable. Qed.
Print Assumptions C83_satisfiable.

(** Vector registers: for floating-point objects and for objects of 16 bytes or more, *)
Theorem C83_vector_register_partial :
  forall t out const p r st, one t out (mkarg const (Plain p)) = Ok r -> In st r ->
    (In "v" (s_alt st) <-> t_x86 t = true /\ (p_float p = true \/ 16 <= p_size p)).
Proof. exact vector_register. Qed.
Print Assumptions C83_vector_register_partial.

(** for the parts of a simd of libstdc++ likewise, *)
Theorem C83_vector_register_lib_partial :
  forall t out const n d r st, t_lib t = true -> one t out (mkarg const (Simd n d)) = Ok r -> In st r ->
    exists p, In p (parts d) /\ s_scalars st = p_scalars p
      /\ (In "v" (s_alt st) <-> t_x86 t = true /\ (p_float p = true \/ 16 <= p_size p)).
Proof. exact vector_register_lib. Qed.
Print Assumptions C83_vector_register_lib_partial.

(** and for a simd of vir/simd.h by its size only. *)
Theorem C83_vector_register_simd :
  forall t out const n d r st, t_lib t = false -> one t out (mkarg const (Simd n d)) = Ok r -> In st r ->
    (In "v" (s_alt st) <-> t_x86 t = true /\ 16 <= n).
Proof. exact vector_register_simd. Qed.
Print Assumptions C83_vector_register_simd.

(** Finding: a float may stay in a vector register, a simd of one float may not. *)
Theorem C83_vector_register_refuted :
  exists t p r r', t_x86 t = true /\ p_float p = true
    /\ one t true (mkarg false (Plain p)) = Ok r /\ one t true (mkarg false (Simd (p_size p) (DOther p))) = Ok r'
    /\ (exists st, In st r /\ In "v" (s_alt st)) /\ (forall st, In st r' -> ~ In "v" (s_alt st)).
Proof. exact one_lane_refuted. Qed.
Print Assumptions C83_vector_register_refuted.

(** A float, a tuple of a vector and a scalar, an int; with libstdc++ and without. *)
Example C83_instance :
  let f := mkplain true 4 [0] in let v := mkplain false 16 [1; 2; 3; 4] in let i := mkplain false 4 [6] in
  let args := [mkarg false (Plain f); mkarg false (Simd 20 (DTuple [v; mkplain true 4 [5]])); mkarg false (Plain i)] in
  let s := mkstate (fun x => x) (fun x => Some x) [] in
  fake_modify (mktarget true true) args
    = Ok [mkstmt ["v"; "x"; "g"; "m"] true [0]; mkstmt ["v"; "x"; "g"; "m"] true [1; 2; 3; 4];
          mkstmt ["v"; "x"; "g"; "m"] true [5]; mkstmt ["g"] true [6]]
  /\ (exists r, fake_modify (mktarget false true) args = Ok r /\ known (run s r) 4 = None /\ known (run s r) 7 = Some 7
        /\ needed (run s r) = [0; 1; 2; 3; 4; 5; 6])
  /\ fake_modify (mktarget true true) [mkarg true (Plain f)] = Stop SIllFormed
  /\ fake_modify (mktarget true true) [mkarg true (Simd 16 (DWrapper v))] = Stop SIllFormed
  /\ part_of_some 5 args /\ NoDup (concat (map (fun a => scalars_of (a_obj a)) args)) /\ sound s.
Proof.
  cbn zeta. split; [reflexivity|]. split; [eexists; repeat split; reflexivity|]. split; [reflexivity|]. split; [reflexivity|].
  split; [|split].
  - eexists. split; [right; left; reflexivity|]. eapply part_tuple; [right; left; reflexivity|now left].
  - cbn. repeat constructor; cbn; intuition lia.
  - intros x v H. now injection H.
Qed.
