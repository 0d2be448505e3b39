(** Property theorems C58: structured bindings of simdized structs. *)
From Verif Require Import Base QualModel QualSpec BindModel BindSpec BindProofs.

(** C58.  A declaration with as many names as members binds name i to member i, with the qualifiers the member
    has in the object (the unqualified types B are arbitrary, they may include the member's name).
    Missing: a new non-const object, "auto [...] = v", and a non-const rvalue kept by "auto&& [...]". *)
Theorem C58_bindings_partial :
  forall B f (w : simdized B) lvalue const, (length (members w) <= 50)%nat -> Forall plain (members w) ->
    declarable f lvalue const -> ~ moves f lvalue const ->
    binds_members f w lvalue const (length (members w)).
Proof. exact binds_ok. Qed.
Print Assumptions C58_bindings_partial.

(** "auto [x, y] = v" and "auto&& [x, y] = f()" are ill-formed: get<i> of an xvalue is the overload for const,
    but the references declared are not to const. *)
Theorem C58_bindings_refuted :
  (forall f lvalue const, moves f lvalue const ->
     bind_types f (STuple [0; 1]) lvalue const 2 = None
     /\ bind_types f (SStruct [mkmember (mkt NoRef (mkq false false 0)) false;
                               mkmember (mkt NoRef (mkq false false 0)) false]) lvalue const 2 = None)
  /\ moves FAuto true false /\ moves FAuto false false /\ moves FForward false false
  /\ declarable FAuto true false /\ declarable FForward false false.
Proof.
  split.
  - intros f lvalue const [-> | (-> & -> & ->)]; split; reflexivity.
  - unfold moves, declarable. intuition congruence.
Qed.
Print Assumptions C58_bindings_refuted.

(** Every declaration: right, unless it moves and some member is not declared const. *)
Theorem C58_bindings_iff :
  forall B f (w : simdized B) lvalue const names, (length (members w) <= 50)%nat -> Forall plain (members w) ->
    (binds_members f w lvalue const names <->
     declarable f lvalue const /\ names = length (members w)
     /\ (moves f lvalue const -> Forall (fun m => q_const (t_obj (m_type m)) = true) (members w))).
Proof. exact binds_iff. Qed.
Print Assumptions C58_bindings_iff.

(** Whatever compiles binds the right members. *)
Theorem C58_bindings_types :
  forall B f (w : simdized B) lvalue const names ns, (length (members w) <= 50)%nat -> Forall plain (members w) ->
    (bind_types f w lvalue const names = Some ns <->
     declarable f lvalue const /\ names = length (members w)
     /\ Forall2 (fun m n => names_member (names_const f const) m n
                            /\ (moves f lvalue const -> q_const (n_type n) = true)) (members w) ns).
Proof. exact bind_types_iff. Qed.
Print Assumptions C58_bindings_types.

Example C58_instances :
  let m b c := mkmember (mkt NoRef (mkq c false b)) false in
  bind_types FRef (SStruct [m 0 false; m 1 false]) true false 2 = Some [mkname (mkq false false 0) 0; mkname (mkq false false 1) 1]
  /\ bind_types FConst (STuple [0; 1; 2]) false false 3 = Some [mkname (mkq true false 0) 0; mkname (mkq true false 1) 1; mkname (mkq true false 2) 2]
  /\ bind_types FForward (STuple [0; 1]) true true 2 = Some [mkname (mkq true false 0) 0; mkname (mkq true false 1) 1]
  /\ bind_types FForward (SStruct [m 5 false]) true false 1 = Some [mkname (mkq false false 5) 5]
  /\ bind_types FAuto (SStruct [m 0 true; m 1 true]) true false 2 = Some [mkname (mkq true false 0) 0; mkname (mkq true false 1) 1]
  /\ bind_types FRef (STuple [0; 1]) true false 3 = None
  /\ bind_types FRef (STuple [0; 1]) false false 2 = None
  /\ Forall plain (members (STuple [0; 1]))
  /\ declarable FRef true false /\ ~ moves FRef true false.
Proof.
  cbn. do 7 (split; [reflexivity|]). split; [repeat constructor|]. unfold declarable, moves. intuition congruence.
Qed.
