(** The initialisation of single members, as rules: which need an initialiser, which cannot be copied, which are
    initialised by an expression that converts to anything, and which by { } around it. *)
From Verif Require Import Base AggInitModel.

(** Elements that need an initialiser: references, classes without default constructor, and what is made of these;
    not if there is a default member initialiser. *)
Inductive needs_init : ty -> Prop :=
| needs_ref k c : needs_init (Ref k c)
| needs_class c : cdefault c = false -> needs_init (Class c)
| needs_array n e : needs_init e -> needs_init (Array n e)
| needs_agg i bs ms e : In e (bs ++ ms) -> needs_init e -> needs_init (Agg i bs ms).

(** Elements that delete the copy constructor. *)
Inductive no_copy : ty -> Prop :=
| no_copy_ref c : no_copy (Ref ToRvalue c)
| no_copy_class c : ccopy c = false -> no_copy (Class c)
| no_copy_array n e : no_copy e -> no_copy (Array n e)
| no_copy_agg i bs ms e : In e (bs ++ ms) -> no_copy e -> no_copy (Agg i bs ms)
| no_copy_dflt t : no_copy t -> no_copy (Dflt t).

(** Elements that x without braces initialises: by conversion to an lvalue, which is copied or bound to, or, where there
    is no such conversion, as the initialiser of the first (sub)element, the others getting none. *)
Inductive from_x : ty -> Prop :=
| x_scalar : from_x Scalar
| x_ref k c : k <> ToRvalue -> from_x (Ref k c)
| x_class c : ccopy c = true -> from_x (Class c)
| x_array n e : from_x e -> (n = 0%nat \/ ~ needs_init e) -> from_x (Array (S n) e)
| x_copy i bs ms : ~ no_copy (Agg i bs ms) -> from_x (Agg i bs ms)
| x_elided i bs ms e es : bs ++ ms = e :: es -> from_x e -> (forall m, In m es -> ~ needs_init m) -> from_x (Agg i bs ms)
| x_dflt t : from_x t -> from_x (Dflt t).

(** Elements that { x } initialises. *)
Inductive from_braced_x : ty -> Prop :=
| braced_scalar : from_braced_x Scalar
| braced_ref k : k <> ToMutable -> from_braced_x (Ref k None)
| braced_class_ref k c : k <> ToMutable -> ctakes c = true -> from_braced_x (Ref k (Some c))
| braced_class c : ctakes c = true -> from_braced_x (Class c)
| braced_array n e : from_x e -> (n = 0%nat \/ ~ needs_init e) -> from_braced_x (Array (S n) e)
| braced_agg i bs ms e es : bs ++ ms = e :: es -> from_x e -> (forall m, In m es -> ~ needs_init m) ->
    from_braced_x (Agg i bs ms)
| braced_dflt t : from_braced_x t -> from_braced_x (Dflt t).
