(** C22: the rule of the TS for implicit conversions between simds (N4808 [parallel.simd.ctor]: U is not value_type,
    every value of U is a value of value_type, and if both are integral, the integer conversion rank of
    value_type is greater than that of U), and the usual platforms. *)
From Verif Require Import Base IntModel ValueModel ValueProofs AcceptModel.

(** Integer conversion ranks, [conv.rank]. *)
Definition rank (e : elt) : option Z :=
  match e with
  | Char | SChar | UChar => Some 1 | Short | UShort => Some 2 | Int | UInt => Some 3 | Long | ULong => Some 4
  | LLong | ULLong => Some 5 | Float | Double | LDouble => None
  end.

Definition ts_implicit (p : platform) (u t : elt) : Prop :=
  u <> t /\ (forall m x, has_value (p_aty p u) m x -> has_value (p_aty p t) m x)
  /\ (forall r s, rank u = Some r -> rank t = Some s -> r < s).

(** long double: binary64 (MSVC, Apple silicon), x87's format in 12 or 16 bytes, binary128. *)
Inductive long_double := Binary64 | X87_12 | X87_16 | Binary128.

(** char signed; long of 64 bits; long double.  short, int and long long have 16, 32 and 64 bits. *)
Record data_model := mkdm { d_char : bool; d_long64 : bool; d_ldouble : long_double }.

(** The usual arithmetic conversions, [expr.arith.conv]. *)
Definition arith_conv (long64 : bool) (a b : elt) : elt :=
  match a, b with
  | LDouble, _ | _, LDouble => LDouble
  | Double, _ | _, Double => Double
  | Float, _ | _, Float => Float
  | ULLong, _ | _, ULLong => ULLong
  | ULong, LLong | LLong, ULong => if long64 then ULLong else LLong
  | LLong, _ | _, LLong => LLong
  | ULong, _ | _, ULong => ULong
  | Long, UInt | UInt, Long => if long64 then Long else ULong
  | Long, _ | _, Long => Long
  | UInt, _ | _, UInt => UInt
  | _, _ => Int
  end.

Definition dm_platform (d : data_model) : platform :=
  mkplatform (mklang 32 true)
    (fun e => match e with
              | Char => AInt (mkity 8 (d_char d)) | SChar => AInt (mkity 8 true) | UChar => AInt (mkity 8 false)
              | Short => AInt (mkity 16 true) | UShort => AInt (mkity 16 false)
              | Int => AInt (mkity 32 true) | UInt => AInt (mkity 32 false)
              | Long => AInt (mkity (if d_long64 d then 64 else 32) true)
              | ULong => AInt (mkity (if d_long64 d then 64 else 32) false)
              | LLong => AInt (mkity 64 true) | ULLong => AInt (mkity 64 false)
              | Float => AFloat 24 127 | Double => AFloat 53 1023
              | LDouble => match d_ldouble d with
                           | Binary64 => AFloat 53 1023 | X87_12 | X87_16 => AFloat 64 16383 | Binary128 => AFloat 113 16383
                           end
              end)
    (fun e => match e with
              | Char | SChar | UChar => 1 | Short | UShort => 2 | Int | UInt | Float => 4
              | Long | ULong => if d_long64 d then 8 else 4
              | LLong | ULLong | Double => 8
              | LDouble => match d_ldouble d with Binary64 => 8 | X87_12 => 12 | X87_16 | Binary128 => 16 end
              end)
    (arith_conv (d_long64 d)).
