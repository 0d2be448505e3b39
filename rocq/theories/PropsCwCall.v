(** C51: call, subscript and unary operators of constexpr_wrapper. *)
From Verif Require Import Base CwOpModel CwCallModel CwCallSpec CwCallProofs.

(** All arguments constants and the result a constant: the wrapped result. *)
Theorem C51_constant_arguments_wrap : forall (A R : Type) (c : wrapped A R) (args : list (argument A)) (r : R),
  Forall is_const args -> c_constant c (map argument_value args) = true ->
  c_apply c (map (@Value A) (map argument_value args)) = Some r ->
  call c args = AWrapped r /\ (c_compound c = true -> subscript c args = AWrapped r).
Proof. exact (@call_const). Qed.
Print Assumptions C51_constant_arguments_wrap.

Example C51_constant_arguments_wrap_ex : subscript array3 [AConst 2] = AWrapped 30 /\ call array3 [AConst 0] = AWrapped 10.
Proof. split; reflexivity. Qed.

(** Some argument no constant: the plain result of forwarding all of them. *)
Theorem C51_runtime_argument_plain : forall (A R : Type) (c : wrapped A R) (args : list (argument A)) (r : R),
  Exists (fun x => ~ is_const x) args -> c_apply c (map forwarded args) = Some r ->
  call c args = APlain r /\ (c_compound c = true \/ c_scalar c = true -> subscript c args = APlain r).
Proof. exact (@call_mixed). Qed.
Print Assumptions C51_runtime_argument_plain.

Example C51_runtime_argument_plain_ex : subscript array3 [ARun 1] = APlain 20.
Proof. reflexivity. Qed.

(** Whatever a call or a subscript gives, wrapped or not, is what the wrapped object gives for the values; for
    an object that does not tell a constant from its value. *)
Theorem C51_result_is_value_partial : forall (A R : Type) (c : wrapped A R) (args : list (argument A)) (r : R),
  transparent c ->
  ((call c args = AWrapped r \/ call c args = APlain r) -> c_apply c (map (@Value A) (map argument_value args)) = Some r)
  /\ ((subscript c args = AWrapped r \/ subscript c args = APlain r) ->
      c_apply c (map (@Value A) (map argument_value args)) = Some r).
Proof. exact (fun A R c args r T => conj (call_value c args r T) (subscript_value c args r T)). Qed.
Print Assumptions C51_result_is_value_partial.

Example C51_result_is_value_ex : transparent array3 /\ call array3 [ARun 1] = APlain 20.
Proof.
  split; [|reflexivity]. intros l l' E. cbn. destruct l as [|p [|? ?] ], l' as [|q [|? ?] ]; cbn in E; try discriminate E; try reflexivity.
  injection E as E. now rewrite E.
Qed.

(** Without the restriction that fails: constants are forwarded as objects beside a run-time argument. *)
Theorem C51_result_is_value_refuted : exists (c : wrapped Z Z) (args : list (argument Z)) (r r' : Z),
  c_apply c (map (@Value Z) (map argument_value args)) = Some r /\ call c args = APlain r' /\ r <> r'.
Proof. exact call_mixed_refuted. Qed.
Print Assumptions C51_result_is_value_refuted.

(** Exactly when a call is ill-formed. *)
Theorem C51_call_ill_formed_iff : forall (A R : Type) (c : wrapped A R) (args : list (argument A)),
  transparent c ->
  (call c args = AIllFormed <->
   (args <> [] /\ c_apply c (map (@Value A) (map argument_value args)) = None)
   \/ (c_apply c (map (@Value A) (map argument_value args)) <> None /\ Forall is_const args
       /\ c_constant c (map argument_value args) = false /\ c_scalar c = false)).
Proof. exact (@call_ill_formed_iff). Qed.
Print Assumptions C51_call_ill_formed_iff.

(** Exactly when a subscript is ill-formed. *)
Theorem C51_subscript_ill_formed_iff : forall (A R : Type) (c : wrapped A R) (args : list (argument A)),
  transparent c -> (c_scalar c = true \/ c_compound c = true) ->
  (subscript c args = AIllFormed <->
   c_apply c (map (@Value A) (map argument_value args)) = None
   \/ (Forall is_const args /\ c_constant c (map argument_value args) = false /\ c_scalar c = false)).
Proof. exact (@subscript_ill_formed_iff). Qed.
Print Assumptions C51_subscript_ill_formed_iff.

(** So a class object that can be called with these values cannot be called with them as constants if the
    result is no template argument; with the same value at run time it can. *)
Theorem C51_callable_refuted : exists (c : wrapped Z Z) (args : list (argument Z)) (r : Z),
  transparent c /\ c_apply c (map (@Value Z) (map argument_value args)) = Some r /\ args = [AConst 1]
  /\ call c args = AIllFormed /\ call c [ARun 1] = APlain r.
Proof. exact call_refuted. Qed.
Print Assumptions C51_callable_refuted.

(** The call gives the wrapped value itself exactly without arguments and if value() is ill-formed. *)
Theorem C51_call_itself_iff : forall (A R : Type) (c : wrapped A R) (args : list (argument A)),
  call c args = AItself <-> args = [] /\ c_apply c [] = None.
Proof. exact (@call_itself_iff). Qed.
Print Assumptions C51_call_itself_iff.

Example C51_call_itself_ex : call array3 [] = AItself /\ call counts_values [] = AWrapped 0.
Proof. split; reflexivity. Qed.

(** A unary operator wraps its result for the value, for a wrapper whose two arguments agree. *)
Theorem C51_unary_wraps_partial : forall (op : constant -> option constant) (w : wrapper) (c : constant),
  w_xty w = w_ty w -> op (w_ty w, w_x w) = Some c -> unary op w = Wrapped (wrap c).
Proof. exact unary_wraps. Qed.
Print Assumptions C51_unary_wraps_partial.

(** In general exactly if the operator gives the same for Xp in its own type, or nothing for it. *)
Theorem C51_unary_exact : forall (op : constant -> option constant) (w : wrapper) (c : constant),
  op (w_ty w, w_x w) = Some c ->
  (unary op w = Wrapped (wrap c) \/ unary op w = Plain (Ok c)
   <-> op (w_xty w, w_x w) = Some c \/ op (w_xty w, w_x w) = None).
Proof. exact unary_exact. Qed.
Print Assumptions C51_unary_exact.

Example C51_unary_ex : unary negate (wrap (7, 5)) = Wrapped (wrap (7, -5))
  /\ unary negate (wrap (7, - 2 ^ 63)) = Plain (Stop SUB).
Proof. split; reflexivity. Qed.

(** -constexpr_wrapper<1u, long>{} is 4294967295u, not -1L. *)
Theorem C51_unary_refuted : exists w, negate (w_ty w, w_x w) = Some (7, -1)
  /\ unary negate w = Wrapped (wrap (5, 4294967295)).
Proof. exact unary_refuted. Qed.
Print Assumptions C51_unary_refuted.
