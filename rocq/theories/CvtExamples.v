(** Concrete types and conversions for the examples beside the C68 theorems: 32-bit int and unsigned,
    64-bit long, 16-bit short, float; floats that hold integers only. *)
From Verif Require Import Base IntModel ValueModel CvtModel CvtSpec.

Definition ex_l : lang := mklang 32 true.
Definition ty_int := mkarith id_int (AInt (mkity 32 true)) 4.
Definition ty_uint := mkarith id_unsigned (AInt (mkity 32 false)) 4.
Definition ty_bool := mkarith id_bool ABool 1.
Definition ty_short := mkarith 3 (AInt (mkity 16 true)) 2.
Definition ty_long := mkarith 4 (AInt (mkity 64 true)) 8.
Definition ty_float := mkarith 5 (AFloat 24 128) 4.

(** decltype(T() + U()) is T for the types above *)
Definition ex_sum (t u : arith) : bool := (a_id t =? a_id u) && negb (a_id t =? 3) || (a_id t =? id_unsigned) && (a_id u =? id_int).

(** Integral conversions; a float holding an integer converts to an integer type if the value fits
    ([conv.fpint]), and an integer is taken to be representable as a float. *)
Definition ex_conv (a b : arith) (v : Z) : res Z :=
  if a_id a =? a_id b then Ok v
  else match a_kind a, a_kind b with
       | _, ABool => Ok (if v =? 0 then 0 else 1)
       | AFloat _ _, AInt t => if in_type t v then Ok v else Stop SUB
       | _, AInt t => Ok (convert t v)
       | _, _ => Ok v
       end.

Lemma ex_conv_refl : conv_refl ex_conv.
Proof. intros a b v H. unfold ex_conv. now rewrite H, Z.eqb_refl. Qed.
Lemma ex_conv_ub : conv_ub ex_conv.
Proof.
  intros a b v s. unfold ex_conv. destruct (a_id a =? a_id b); [discriminate|].
  destruct (a_kind a), (a_kind b); try discriminate; destruct (in_type _ _); congruence.
Qed.

Definition ex_init := init_from_cvt ex_l ex_sum ty_bool ex_conv.
