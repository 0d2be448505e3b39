(** Property theorems C63: struct_size_v is the number of structured bindings. *)
From Verif Require Import Base StructModel AggInitModel AggInitSpec AggInitProofs AggInitRules AggInitRuleProofs.

(** Aggregates with at most three empty bases: the result is right exactly if every member can be
    initialised from { x } with x convertible to (almost) anything. *)
Theorem C63_members_iff :
  forall i bs ms sizeof fuel, (length bs <= 3)%nat -> Forall empty_base bs ->
    Forall (foreign (Agg i bs ms)) ms ->
    0 < sizeof -> sizeof * 8 < two64 - 1 -> sizeof * 8 < Z.of_nat fuel -> Z.of_nat (length ms) <= sizeof * 8 ->
    bindings (Agg i bs ms) = Some (length ms) /\
    (reflect_size None (Agg i bs ms) fuel sizeof = Ok (Z.of_nat (length ms))
     <-> Forall from_braced_x ms).
Proof. exact members_rules. Qed.
Print Assumptions C63_members_iff.

(** In every case the result is the number of leading members that can be, or 0 if one of the others
    needs an initialiser. *)
Theorem C63_found :
  forall i bs ms sizeof fuel, (length bs <= 3)%nat -> Forall empty_base bs ->
    Forall (foreign (Agg i bs ms)) ms ->
    0 < sizeof -> sizeof * 8 < two64 - 1 -> sizeof * 8 < Z.of_nat fuel -> Z.of_nat (length ms) <= sizeof * 8 ->
    exists k n, reflect_size None (Agg i bs ms) fuel sizeof = Ok k
      /\ (n <= length ms)%nat /\ Forall from_braced_x (firstn n ms)
      /\ (forall m, nth_error ms n = Some m -> ~ from_braced_x m)
      /\ ((forall m, In m (skipn n ms) -> ~ needs_init m) -> k = Z.of_nat n)
      /\ (Exists needs_init (skipn n ms) -> k = 0).
Proof. exact found_rules. Qed.
Print Assumptions C63_found.

(** The usual members are of this kind. *)
Theorem C63_usual_partial :
  forall i bs ms sizeof fuel, (length bs <= 3)%nat -> Forall empty_base bs ->
    Forall usual ms -> Forall (foreign (Agg i bs ms)) ms ->
    0 < sizeof -> sizeof * 8 < two64 - 1 -> sizeof * 8 < Z.of_nat fuel -> Z.of_nat (length ms) <= sizeof * 8 ->
    exists n, bindings (Agg i bs ms) = Some n /\ reflect_size None (Agg i bs ms) fuel sizeof = Ok (Z.of_nat n).
Proof. exact members_usual. Qed.
Print Assumptions C63_usual_partial.

(** struct E1 {}; struct E2 {}; struct T : E1, E2 { int a; P p; int b[3]; const int& c; }; with
    struct P { int x, y; }; *)
Example C63_usual_case :
  let E1 := Agg 1 [] [] in let E2 := Agg 2 [] [] in let P := Agg 3 [] [Scalar; Scalar] in
  let ms := [Scalar; P; Array 3 Scalar; Ref ToConst None] in
  let T := Agg 4 [E1; E2] ms in
  Forall empty_base [E1; E2] /\ Forall usual ms /\ Forall (foreign T) ms
  /\ bindings T = Some 4%nat /\ reflect_size None T 400 40 = Ok 4
  /\ aggregate_with_n_members T 3 = false /\ aggregate_with_n_members T 5 = false.
Proof.
  cbv zeta. split; [repeat constructor|].
  split.
  { constructor; [constructor|]. constructor; [exact (usual_struct 3 1)|]. constructor; [exact (usual_array 2)|].
    constructor; [constructor|constructor]. }
  split.
  { repeat (apply Forall_cons; [intros i Hi; cbn in *; intuition lia|]). constructor. }
  split; [reflexivity|]. split; [vm_compute; reflexivity|]. split; vm_compute; reflexivity.
Qed.

(** Members of type T& and of a class without elements are never of this kind: for such a struct the
    result is wrong. *)
Theorem C63_member_refuted :
  forall i bs ms m sizeof fuel, (length bs <= 3)%nat -> Forall empty_base bs ->
    Forall (foreign (Agg i bs ms)) ms ->
    0 < sizeof -> sizeof * 8 < two64 - 1 -> sizeof * 8 < Z.of_nat fuel -> Z.of_nat (length ms) <= sizeof * 8 ->
    In m ms -> (exists c, m = Ref ToMutable c) \/ (exists j, m = Agg j [] []) ->
    bindings (Agg i bs ms) = Some (length ms)
    /\ reflect_size None (Agg i bs ms) fuel sizeof <> Ok (Z.of_nat (length ms)).
Proof. exact member_refuted. Qed.
Print Assumptions C63_member_refuted.

(** The rules say the same as the initialisation that the model computes, for members that have nothing to do with the
    bases; for the others see below. *)
Theorem C63_rules :
  forall T t, foreign T t ->
    (consume T t [Braced] = Some [] <-> from_braced_x t)
    /\ (consume T t [Bare] = Some [] <-> from_x t)
    /\ (consume T t [] = Some [] <-> ~ needs_init t).
Proof. exact rules. Qed.
Print Assumptions C63_rules.

(** struct { int a; E e; int b; } has size 1, struct { int& r; int a; } has size 0. *)
Example C63_member_case :
  let A := Agg 1 [] [Scalar; Agg 2 [] []; Scalar] in
  let B := Agg 3 [] [Ref ToMutable None; Scalar] in
  bindings A = Some 3%nat /\ reflect_size None A 100 12 = Ok 1
  /\ bindings B = Some 2%nat /\ reflect_size None B 200 16 = Ok 0.
Proof. vm_compute. auto. Qed.

(** An empty base with a converting constructor is counted as a member. *)
Theorem C63_converting_base_refuted :
  exists T n sizeof fuel, bindings T = Some n /\ reflect_size None T fuel sizeof = Ok (Z.of_nat n + 1).
Proof. exact converting_base. Qed.
Print Assumptions C63_converting_base_refuted.

(** A base type that is also at the front of a member's member: its elements are counted one by one. *)
Theorem C63_base_in_member_refuted :
  exists T n sizeof fuel, bindings T = Some n /\ reflect_size None T fuel sizeof = Ok (Z.of_nat n + 1)
    /\ match T with Agg _ bs ms => Forall empty_base bs /\ Forall (fun m => takes T m = true) ms | _ => False end.
Proof. exact base_in_member. Qed.
Print Assumptions C63_base_in_member_refuted.

(** The documented limit: with more than three empty bases no member is found. *)
Theorem C63_many_bases :
  forall i bs ms sizeof fuel, (3 < length bs)%nat -> Forall empty_base bs ->
    Forall (foreign (Agg i bs ms)) ms ->
    0 < sizeof -> sizeof * 8 < two64 - 1 -> sizeof * 8 < Z.of_nat fuel ->
    bindings (Agg i bs ms) = Some (length ms) /\ reflect_size None (Agg i bs ms) fuel sizeof = Ok 0.
Proof. exact many_bases. Qed.
Print Assumptions C63_many_bases.

Example C63_many_bases_case :
  let T := Agg 5 [Agg 1 [] []; Agg 2 [] []; Agg 3 [] []; Agg 4 [] [] ] [Scalar] in
  Forall (foreign T) [Scalar] /\ bindings T = Some 1%nat /\ reflect_size None T 40 4 = Ok 0.
Proof. cbv zeta. split; [repeat constructor; intros i []|]. vm_compute. auto. Qed.

(** All members in one base class, the other case that is documented to be supported: the result is
    right only for a single member ... *)
Theorem C63_derived_iff :
  forall i j ms sizeof fuel, let T := Agg i [Agg j [] ms] [] in
    ms <> [] -> Forall (foreign T) ms ->
    0 < sizeof -> sizeof * 8 < two64 - 1 -> sizeof * 8 < Z.of_nat fuel ->
    bindings T = Some (length ms) /\
    (reflect_size None T fuel sizeof = Ok (Z.of_nat (length ms))
     <-> length ms = 1%nat /\ from_braced_x (Agg j [] ms)).
Proof. exact derived_iff_rules. Qed.
Print Assumptions C63_derived_iff.

(** ... namely 1 ... *)
Theorem C63_derived_refuted :
  forall i j ms sizeof fuel, let T := Agg i [Agg j [] ms] [] in
    ms <> [] -> Forall (foreign T) ms ->
    0 < sizeof -> sizeof * 8 < two64 - 1 -> sizeof * 8 < Z.of_nat fuel ->
    (from_braced_x (Agg j [] ms) -> reflect_size None T fuel sizeof = Ok 1)
    /\ (~ from_braced_x (Agg j [] ms) -> reflect_size None T fuel sizeof = Ok 0).
Proof. exact derived_rules. Qed.
Print Assumptions C63_derived_refuted.

(** ... unless that base class itself has an empty base. *)
Theorem C63_derived_empty_base_iff :
  forall i j es ms sizeof fuel, let T := Agg i [Agg j es ms] [] in
    ms <> [] -> (1 <= length es <= 3)%nat -> Forall empty_base es -> Forall (foreign T) ms ->
    0 < sizeof -> sizeof * 8 < two64 - 1 -> sizeof * 8 < Z.of_nat fuel -> Z.of_nat (length ms) <= sizeof * 8 ->
    bindings T = Some (length ms) /\
    (reflect_size None T fuel sizeof = Ok (Z.of_nat (length ms)) <-> Forall from_braced_x ms).
Proof. exact derived_empty_rules. Qed.
Print Assumptions C63_derived_empty_base_iff.

(** struct B { int a, b; }; struct D : B {}; and with struct B : E { int a, b; }; *)
Example C63_derived_case :
  let D := Agg 1 [Agg 2 [] [Scalar; Scalar] ] [] in
  let D' := Agg 1 [Agg 2 [Agg 3 [] [] ] [Scalar; Scalar] ] [] in
  bindings D = Some 2%nat /\ reflect_size None D 100 8 = Ok 1
  /\ bindings D' = Some 2%nat /\ reflect_size None D' 100 8 = Ok 2.
Proof. vm_compute. auto. Qed.

(** Arrays. *)
Theorem C63_array_iff :
  forall n e sizeof fuel,
    0 < sizeof -> sizeof * 8 < two64 - 1 -> sizeof * 8 < Z.of_nat fuel -> Z.of_nat n <= sizeof * 8 ->
    bindings (Array n e) = Some n /\
    (reflect_size None (Array n e) fuel sizeof = Ok (Z.of_nat n) <-> n = 0%nat \/ from_braced_x e).
Proof. exact array_rules. Qed.
Print Assumptions C63_array_iff.

Example C63_array_case :
  reflect_size None (Array 3 Scalar) 100 12 = Ok 3
  /\ reflect_size None (Array 3 (Agg 1 [] [])) 100 3 = Ok 0.
Proof. vm_compute. auto. Qed.

(** Types with std::tuple_size are not searched; types that are neither are not reflectable. *)
Theorem C63_tuple_like :
  forall T fuel sizeof, (forall n, reflect_size (Some n) T fuel sizeof = Ok n)
    /\ (is_aggregate T = false -> reflect_size None T fuel sizeof = Stop SIllFormed).
Proof. exact tuple_like. Qed.
Print Assumptions C63_tuple_like.
