(** What struct_size_v is documented to be (struct_reflect.h 408-422): the number of identifiers of a
    structured binding declaration, [dcl.struct.bind]. *)
From Verif Require Import Base AggInitModel.

(** The classes of an object that have direct non-static data members, with their numbers (None: a
    class that is not an aggregate). *)
Fixpoint data_classes (t : ty) : list (option nat) :=
  match t with
  | Class c => if cempty c then [] else [None]
  | Agg _ bs ms => flat_map data_classes bs ++ match ms with [] => [] | _ => [Some (length ms)] end
  | _ => []
  end.

(** Arrays are bound element by element; the members of a class all have to be members of the same
    class.  None: not to be decomposed, or not known. *)
Definition bindings (T : ty) : option nat :=
  match T with
  | Array n _ => Some n
  | Agg _ _ _ => match data_classes T with [] => Some 0%nat | [n] => n | _ => None end
  | _ => None
  end.

(** Members as one usually writes them: scalars, references to const and rvalue references of
    scalars, classes that take { x }, non-empty arrays of scalars or copyable classes, and non-empty
    structs of scalars.  *)
Inductive usual : ty -> Prop :=
| usual_scalar : usual Scalar
| usual_const_ref : usual (Ref ToConst None)
| usual_rvalue_ref : usual (Ref ToRvalue None)
| usual_class c : ctakes c = true -> usual (Class c)
| usual_array n : usual (Array (S n) Scalar)
| usual_struct i n : usual (Agg i [] (repeat Scalar (S n)))
| usual_dflt t : usual t -> usual (Dflt t).

(** All the classes a type mentions. *)
Fixpoint mentions (t : ty) : list nat :=
  match t with
  | Scalar => []
  | Ref _ None => []
  | Ref _ (Some c) => [cid c]
  | Class c => [cid c]
  | Array _ e => mentions e
  | Agg i bs ms => i :: flat_map mentions bs ++ flat_map mentions ms
  | Dflt t => mentions t
  end.

Definition foreign (T t : ty) : Prop := forall i, In i (mentions t) -> ~ In i (class_ids T).

(** An empty base that is not constructible from anything. *)
Definition empty_base (t : ty) : Prop :=
  is_empty t = true /\ match t with Class c => ctakes c = false | _ => True end.

(** A member that is initialised by { anything }. *)
Definition takes (T t : ty) : bool := match consume T t [Braced] with Some [] => true | _ => false end.

(** What the search finds: the number of leading members that take { anything }, provided the others
    need no initialiser. *)
Fixpoint leading (T : ty) (ms : list ty) : nat :=
  match ms with [] => 0%nat | m :: ms' => if takes T m then S (leading T ms') else 0%nat end.

Definition found (T : ty) (ms : list ty) : nat :=
  if forallb from_empty (skipn (leading T ms) ms) then leading T ms else 0%nat.
