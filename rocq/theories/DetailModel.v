(** detail.h: meta::as_int (78-119), meta::as_unsigned (121-162), unroll (257-268).  (unroll2: CallsModel.v.) *)
From Verif Require Import Base.

(** The integer types that are tried; [I128] is __int128, an extension. *)
Inductive rank := LLong | Long | Int | Short | Char | I128.
Record ity := mkity { i_rank : rank; i_signed : bool }.

(** The platform: sizeof of the types (the same for the signed and the unsigned one); [None]: __SIZEOF_INT128__ is not
    defined. *)
Record sizes := mksizes { s_llong : Z; s_long : Z; s_int : Z; s_short : Z; s_char : Z; s_i128 : option Z }.

Section meta.
  Variables (p : sizes) (t : Z).

  (** as_int<T, U>, one definition per partial specialisation; t = sizeof(T).  [None]: no member type. *)
  Definition as_int_i128 : option ity :=
    match s_i128 p with
    | Some s => if t =? s then Some (mkity I128 true) else None  (* 81-83, 111-114 *)
    | None => None                                               (* 107-108, 114 *)
    end.
  Definition as_int_char : option ity := if t =? s_char p then Some (mkity Char true) else as_int_i128.   (* 107-110 *)
  Definition as_int_short : option ity := if t =? s_short p then Some (mkity Short true) else as_int_char. (* 97-99 *)
  Definition as_int_int : option ity := if t =? s_int p then Some (mkity Int true) else as_int_short.      (* 93-95 *)
  Definition as_int_long : option ity := if t =? s_long p then Some (mkity Long true) else as_int_int.     (* 89-91 *)
  Definition as_int : option ity := if t =? s_llong p then Some (mkity LLong true) else as_int_long.       (* 85-87 *)

  (** as_unsigned<T, U> *)
  Definition as_unsigned_i128 : option ity :=
    match s_i128 p with
    | Some s => if t =? s then Some (mkity I128 false) else None
    | None => None
    end.
  Definition as_unsigned_char : option ity := if t =? s_char p then Some (mkity Char false) else as_unsigned_i128.
  Definition as_unsigned_short : option ity := if t =? s_short p then Some (mkity Short false) else as_unsigned_char.
  Definition as_unsigned_int : option ity := if t =? s_int p then Some (mkity Int false) else as_unsigned_short.
  Definition as_unsigned_long : option ity := if t =? s_long p then Some (mkity Long false) else as_unsigned_int.
  Definition as_unsigned : option ity := if t =? s_llong p then Some (mkity LLong false) else as_unsigned_long.
End meta.

(** unroll<Iterations, I>(fun), 257-268: the arguments fun is called with, in order.  The function instantiates itself
    with Iterations - 1 until that is 0; [depth] is the compiler's limit on recursive instantiation. *)
Fixpoint unroll (depth : nat) (iterations i : Z) : res (list Z) :=
  if iterations =? 0 then Ok []
  else match depth with
       | O => Stop SIllFormed
       | S depth' => bindR (unroll depth' (iterations - 1) (i + 1)) (fun is => Ok (i :: is))
       end.
