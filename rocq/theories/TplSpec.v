(** C60: a specialisation of a class template whose type arguments can be simdized becomes the same template with
    simdized arguments, if that has the data layout of simdizing the members one by one (README, simdize type
    transformation; comments of simdize.h 176-178, 316-318, 330-333). *)
From Verif Require Import Base TplModel.

(** The scalar members, in order. *)
Fixpoint leaves (t : type) : list Z :=
  match t with
  | TLeaf x => [x]
  | TStruct _ ms => (fix go (ms : list type) := match ms with [] => [] | m :: ms' => leaves m ++ go ms' end) ms
  end.

(** No struct without members anywhere. *)
Fixpoint nonempty (t : type) : Prop :=
  match t with
  | TLeaf _ => True
  | TStruct _ ms =>
      ms <> [] /\ (fix go (ms : list type) := match ms with [] => True | m :: ms' => nonempty m /\ go ms' end) ms
  end.

(** All type arguments replaced, values kept. *)
Definition replaced (simd_of : type -> Z -> option type) (n : Z) (args : list targ) : option (list targ) :=
  traverse (fun a => match a with TType t => option_map TType (simd_of t n) | TValue v => Some (TValue v) end) args.

(** [ts] is T with simdized arguments, [ttup] the tuple of its simdized members; all three have as many members and
    as many scalars. *)
Record comparable (simd_of : type -> Z -> option type) (tpl : list targ -> type) (args : list targ) (n : Z)
    (ts ttup : type) : Prop := mkcomparable {
  c_args : option_map tpl (replaced simd_of n args) = Some ts;
  c_width : 0 < n;
  c_members : exists ms ms' us, members (tpl args) = Some ms /\ members ts = Some ms' /\ members ttup = Some us
                /\ length ms = length ms' /\ Forall2 (fun m u => simd_of m n = Some u) ms us;
  c_nonempty : nonempty (tpl args) /\ nonempty ts /\ nonempty ttup;
  c_scalars : length (leaves ts) = length (leaves (tpl args)) /\ length (leaves ttup) = length (leaves (tpl args))
}.

(** The layouts agree. *)
Definition same_layout (ts ttup : type) : Prop := leaves ts = leaves ttup.

(** What the code can handle: no values among the arguments, or one type followed by values. *)
Definition argument_shape (args : list targ) : Prop :=
  (forall v, ~ In (TValue v) args)
  \/ exists t vs, args = TType t :: map TValue vs /\ vs <> [].

(** The members it can compare: those of a struct whose members have one scalar each, looked for through structs with
    a single member. *)
Fixpoint compared (t : type) : option (list type) :=
  match t with
  | TLeaf _ => Some [t]
  | TStruct _ ms =>
      if forallb (fun m => (length (leaves m) =? 1)%nat) ms then Some ms
      else match ms with [m] => compared m | _ => None end
  end.

(** Both compared, and the same. *)
Definition found_equal (ts ttup : type) : Prop := exists l, compared ts = Some l /\ compared ttup = Some l.

(** Struct without structs. *)
Definition flat (t : type) : Prop :=
  exists x ms, t = TStruct x ms /\ ms <> [] /\ Forall (fun m => exists y, m = TLeaf y) ms.
