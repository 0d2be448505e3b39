(** What a call, a subscript and a unary operator of constexpr_wrapper should give: the vocabulary. *)
From Verif Require Import Base CwOpModel CwCallModel.

Section Spec.
  Context {A R : Type}.

  Definition content (p : passed A) : A := match p with Value a => a | Object a => a end.
  Definition argument_value (x : argument A) : A := match x with AConst a => a | ARun a => a end.
  Definition is_const (x : argument A) : Prop := match x with AConst _ => True | ARun _ => False end.

  (** The wrapped object does not tell a value from an object holding it. *)
  Definition transparent (c : wrapped A R) : Prop := forall l l', map content l = map content l' -> c_apply c l = c_apply c l'.
End Spec.

(** Negation for unsigned (type 5, 32 bits) and long (type 7). *)
Definition negate (c : constant) : option constant :=
  if fst c =? 5 then Some (5, (- snd c) mod 2 ^ 32)
  else if snd c =? - 2 ^ 63 then None else Some (fst c, - snd c).

(** A lambda returning something that is no template argument (std::string_view, which is not structural). *)
Definition not_constant : wrapped Z Z := mkwrapped false true (fun l => Some (Z.of_nat (length l))) (fun _ => false).

(** A generic lambda that treats values and objects of constant type differently: it counts the former. *)
Definition counts_values : wrapped Z Z :=
  mkwrapped false true (fun l => Some (Z.of_nat (length (filter (fun p => match p with Value _ => true | Object _ => false end) l))))
    (fun _ => true).
(** An array of three elements. *)
Definition array3 : wrapped Z Z :=
  mkwrapped false true (fun l => match l with [p] => nth_error [10; 20; 30] (Z.to_nat (content p)) | _ => None end)
    (fun l => match l with [i] => i <? 3 | _ => false end).
