(** Property theorems C57: qualifiers and references of the reflection functions' types. *)
From Verif Require Import Base QualModel QualSpec QualProofs.

(** C57.  struct_get<N>(obj) refers to the type of obj.m.  Missing: a single member of an rvalue, and a single
    member that is mutable or a reference, of a const object (exact condition below). *)
Theorem C57_struct_get_partial :
  forall B N a (ms : list (member B)) m, (length ms <= 50)%nat -> nth_error ms N = Some m ->
    length ms <> 1%nat \/ (a_lvalue a = true /\ (a_const a = false \/ plain m)) ->
    exists q, struct_get_type N a ms = Some q /\ denotes (a_const a) (a_volatile a) m q.
Proof. exact struct_get_ok. Qed.
Print Assumptions C57_struct_get_partial.

(** The same member of the same rvalue: const if it is the only member, not const if there is another one.
    And the int of const std::tuple<int&> cannot be written, that of const std::tuple<int&, int&> can. *)
Theorem C57_struct_get_refuted :
  let i := mkmember (mkt NoRef (mkq false false 0)) false in
  let r := mkmember (mkt LRef (mkq false false 0)) false in
  struct_get_type 0 (mkarg false false false) [i] = Some (mkq true false 0)
  /\ struct_get_type 0 (mkarg false false false) [i; i] = Some (mkq false false 0)
  /\ denotes false false i (mkq false false 0)
  /\ struct_get_type 0 (mkarg true true false) [r] = Some (mkq true false 0)
  /\ struct_get_type 0 (mkarg true true false) [r; r] = Some (mkq false false 0)
  /\ denotes true false r (mkq false false 0).
Proof. cbn. split; [|split; [|split; [|split; [|split]]]]; try reflexivity; unfold denotes; cbn; intuition congruence. Qed.
Print Assumptions C57_struct_get_refuted.

(** Every argument: the type is right iff there is more than one member, or the argument is a non-const
    lvalue, or the member is const in the object anyway. *)
Theorem C57_struct_get_iff :
  forall B N a (ms : list (member B)) m, (length ms <= 50)%nat -> nth_error ms N = Some m ->
    ((exists q, struct_get_type N a ms = Some q /\ denotes (a_const a) (a_volatile a) m q) <->
     length ms <> 1%nat \/ (a_lvalue a = true /\ a_const a = false)
     \/ ((a_lvalue a = true \/ a_volatile a = false)
         /\ exists q, denotes (a_const a) (a_volatile a) m q /\ q_const q = true)).
Proof. exact struct_get_iff. Qed.
Print Assumptions C57_struct_get_iff.

(** In all cases no qualifier is lost: the type differs at most by an additional const. *)
Theorem C57_struct_get_qualifiers_kept :
  forall B N a (ms : list (member B)) q, struct_get_type N a ms = Some q ->
    exists m expected, nth_error ms N = Some m /\ denotes (a_const a) (a_volatile a) m expected
                       /\ same_but_const q expected.
Proof. exact struct_get_safe. Qed.
Print Assumptions C57_struct_get_qualifiers_kept.

(** It is ill-formed for the single member of a volatile rvalue only. *)
Theorem C57_struct_get_well_formed_iff :
  forall B N a (ms : list (member B)) m, (length ms <= 50)%nat -> nth_error ms N = Some m ->
    (struct_get_type N a ms = None <-> length ms = 1%nat /\ a_lvalue a = false /\ a_volatile a = true).
Proof. exact struct_get_exists. Qed.
Print Assumptions C57_struct_get_well_formed_iff.

(** to_tuple_ref and to_pair_ref refer to the types of all obj.m, for every argument. *)
Theorem C57_to_tuple_ref :
  forall B a (ms : list (member B)), (length ms <= 50)%nat ->
    exists qs, to_tuple_ref_type a ms = Some qs /\ Forall2 (denotes (a_const a) (a_volatile a)) ms qs.
Proof. exact to_tuple_ref_denotes. Qed.
Print Assumptions C57_to_tuple_ref.

(** to_tuple and to_pair hold copies: the declared types without references, a const object notwithstanding. *)
Theorem C57_to_tuple :
  forall B a (ms : list (member B)), (length ms <= 50)%nat -> a_volatile a = false ->
    to_tuple_type a ms = Some (map (fun m => t_obj (m_type m)) ms).
Proof. exact to_tuple_copies. Qed.
Print Assumptions C57_to_tuple.

(** Volatile objects: ill-formed for rvalues; volatile elements for lvalues. *)
Theorem C57_to_tuple_volatile :
  forall B a (ms : list (member B)), (length ms <= 50)%nat -> a_volatile a = true ->
    (a_lvalue a = false -> to_tuple_type a ms = None)
    /\ (a_lvalue a = true -> exists qs, to_tuple_type a ms = Some qs /\ Forall2 (denotes false true) ms qs).
Proof. exact to_tuple_volatile. Qed.
Print Assumptions C57_to_tuple_volatile.

(** struct_element_t<N, T> of an unqualified T is the declared type iff that is no reference. *)
Theorem C57_struct_element_iff :
  forall B C N (T : type C) (ms : list (member B)) m, (length ms <= 50)%nat ->
    q_const (t_obj T) = false -> q_volatile (t_obj T) = false -> nth_error ms N = Some m ->
    (option_map (mkt NoRef) (struct_element_type N T ms) = Some (m_type m) <-> t_ref (m_type m) = NoRef).
Proof. exact element_declared. Qed.
Print Assumptions C57_struct_element_iff.

(** The qualifiers of T go to the element as to the member. *)
Theorem C57_struct_element_partial :
  forall B C N (T : type C) (ms : list (member B)) m, (length ms <= 50)%nat -> nth_error ms N = Some m ->
    length ms <> 1%nat \/ q_const (t_obj T) = false \/ plain m ->
    exists q, struct_element_type N T ms = Some q /\ denotes (q_const (t_obj T)) (q_volatile (t_obj T)) m q.
Proof. exact element_qualified. Qed.
Print Assumptions C57_struct_element_partial.

(** copy_cvref<From, To> is To with the qualifiers and the reference of From added. *)
Theorem C57_copy_cvref :
  forall C D (From : type C) (To : qtype D),
    t_ref (copy_cvref From To) = t_ref From
    /\ q_base (t_obj (copy_cvref From To)) = q_base To
    /\ (q_const (t_obj (copy_cvref From To)) = true <-> q_const (t_obj From) = true \/ q_const To = true)
    /\ (q_volatile (t_obj (copy_cvref From To)) = true <-> q_volatile (t_obj From) = true \/ q_volatile To = true).
Proof. exact copy_cvref_ok. Qed.
Print Assumptions C57_copy_cvref.

(** as_tuple_t<T>, as_pair_t<T>: const and reference of T around the declared types without references. *)
Theorem C57_as_tuple :
  forall B C (T : type C) (ms : list (member B)), (length ms <= 50)%nat -> q_volatile (t_obj T) = false ->
    as_tuple_type T ms
    = Some (mkt (t_ref T) (mkq (q_const (t_obj T)) false (map (fun m => t_obj (m_type m)) ms))).
Proof. exact as_tuple_ok. Qed.
Print Assumptions C57_as_tuple.

(** There is none for a volatile T, or T&&. *)
Theorem C57_as_tuple_volatile :
  forall B C (T : type C) (ms : list (member B)), q_volatile (t_obj T) = true -> t_ref T <> LRef ->
    as_tuple_type T ms = None.
Proof. exact as_tuple_volatile. Qed.
Print Assumptions C57_as_tuple_volatile.

Example C57_instances :
  let i := mkmember (mkt NoRef (mkq false false 0)) false in
  let ci := mkmember (mkt NoRef (mkq true false 0)) false in
  let mi := mkmember (mkt NoRef (mkq false false 0)) true in
  let r := mkmember (mkt LRef (mkq false false 1)) false in
  let S := fun rk c => mkt rk (mkq c false 9) in
  struct_get_type 1 (mkarg true true false) [i; i] = Some (mkq true false 0)
  /\ struct_get_type 0 (mkarg false false false) [ci] = Some (mkq true false 0)
  /\ struct_get_type 1 (mkarg true true false) [i; mi] = Some (mkq false false 0)
  /\ struct_get_type 0 (mkarg true true false) [mi] = Some (mkq true false 0)
  /\ struct_get_type 2 (mkarg true true false) [i; i] = None
  /\ to_tuple_type (mkarg true true false) [i; ci; r] = Some [mkq false false 0; mkq true false 0; mkq false false 1]
  /\ struct_element_type 1 (S NoRef true) [i; r] = Some (mkq false false 1)
  /\ as_tuple_type (S LRef true) [i; r] = Some (mkt LRef (mkq true false [mkq false false 0; mkq false false 1]))
  /\ as_tuple_type (S NoRef false) [i; ci] = Some (mkt NoRef (mkq false false [mkq false false 0; mkq true false 0]))
  /\ plain i.
Proof. cbn. repeat split. Qed.
