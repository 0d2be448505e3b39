(** Specification: structured bindings as a struct with these members would have them (C58). *)
From Verif Require Import Base QualModel QualSpec BindModel.

(** The members: elements of a tuple are plain. *)
Definition members {B} (w : simdized B) : list (member B) :=
  match w with
  | STuple es => map (fun b => mkmember (mkt NoRef (mkq false false b)) false) es
  | SStruct ms => ms
  end.

(** The object the names refer to is const: declared so, or a reference to a const object. *)
Definition names_const (f : form) (const : bool) : bool :=
  match f with FConst | FConstRef => true | FAuto => false | FRef | FForward => const end.

(** auto& cannot bind a non-const rvalue; everything else can be declared. *)
Definition declarable (f : form) (lvalue const : bool) : Prop := f = FRef -> lvalue = true \/ const = true.

(** [n] is a name for member [m] of an object that is const or not. *)
Definition names_member {B} (c : bool) (m : member B) (n : name B) : Prop :=
  denotes c false m (n_type n) /\ n_refers n = q_base (t_obj (m_type m)).

(** The names are lvalues for the members. *)
Definition binds_members {B} (f : form) (w : simdized B) (lvalue const : bool) (names : nat) : Prop :=
  exists ns, bind_types f w lvalue const names = Some ns
             /\ Forall2 (names_member (names_const f const)) (members w) ns.

(** The object is new (auto) or a non-const rvalue kept by reference (auto&&). *)
Definition moves (f : form) (lvalue const : bool) : Prop :=
  f = FAuto \/ (f = FForward /\ lvalue = false /\ const = false).
