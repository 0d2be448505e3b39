(** Property theorems C30 (struct_size) and C34 (simd_version). *)
From Verif Require Import Base StructModel StructProofs.

(** C30.  Terminates within sizeof * CHAR_BIT + 1 nested instantiations, returns the largest
    accepted number of initialisers (0 if none is accepted), probes only numbers in bounds, and none
    of them twice. *)
Theorem C30_struct_size :
  forall valid sizeof fuel, 0 < sizeof -> sizeof * 8 < two64 - 1 -> sizeof * 8 < Z.of_nat fuel ->
    contiguous valid 0 (sizeof * 8) ->
    exists r ps, struct_size_v valid fuel sizeof = Ok (r, ps) /\ best valid 0 (sizeof * 8) r
      /\ Forall (fun p => 0 <= p <= sizeof * 8) ps /\ NoDup ps.
Proof. exact struct_size_v_best. Qed.
Print Assumptions C30_struct_size.

(** The usual case: an aggregate with [m] members accepts between [a] and [m] initialisers. *)
Theorem C30_struct_size_members :
  forall valid sizeof fuel a m, 0 < sizeof -> sizeof * 8 < two64 - 1 -> sizeof * 8 < Z.of_nat fuel ->
    0 <= a <= m -> m <= sizeof * 8 -> (forall k, valid k = true <-> a <= k <= m) ->
    exists ps, struct_size_v valid fuel sizeof = Ok (m, ps).
Proof. exact struct_size_interval. Qed.
Print Assumptions C30_struct_size_members.

Example C30_instance :
  struct_size_v (fun k => (0 <=? k) && (k <=? 3)) 100 12 = Ok (3, [8; 4; 2; 3])
  /\ struct_size_v (fun k => (2 <=? k) && (k <=? 30)) 100 12
     = Ok (30, [8; 52; 30; 41; 36; 33; 32; 31; 34; 35; 38; 37; 39; 40; 46; 44; 43; 42; 45; 49; 48; 47; 50; 51])
  /\ struct_size_v (fun k => k =? 0) 100 1 = Ok (0, [8; 4; 2; 1; 0; 3; 6; 5; 7])
  /\ contiguous (fun k => (0 <=? k) && (k <=? 3)) 0 96.
Proof.
  split; [vm_compute; reflexivity|]. split; [vm_compute; reflexivity|]. split; [vm_compute; reflexivity|].
  intros a b c. lia.
Qed.

(** Without contiguity the search can miss the largest size. *)
Example C30_contiguity_is_needed :
  struct_size_v (fun k => (k =? 2) || (k =? 9)) 100 12 = Ok (2, [8; 4; 2; 3]).
Proof. vm_compute. reflexivity. Qed.

(** C34.  All six operators, with and without operator<=>, are those of one strict total order,
    the lexicographic one. *)
Theorem C34_version_operators :
  forall spaceship a b,
    (v_lt spaceship a b = true <-> lex_lt a b) /\ (v_gt spaceship a b = true <-> lex_lt b a) /\
    (v_le spaceship a b = true <-> lex_lt a b \/ a = b) /\
    (v_ge spaceship a b = true <-> lex_lt b a \/ b = a) /\
    (v_eq a b = true <-> a = b) /\ (v_ne a b = true <-> a <> b).
Proof. exact version_operators. Qed.
Print Assumptions C34_version_operators.

Theorem C34_version_total_order :
  (forall a, ~ lex_lt a a) /\ (forall a b c, lex_lt a b -> lex_lt b c -> lex_lt a c)
  /\ (forall a b, lex_lt a b \/ a = b \/ lex_lt b a).
Proof. exact lex_strict_total. Qed.
Print Assumptions C34_version_total_order.

(** The macros decode what was encoded ... *)
Theorem C34_version_decode :
  forall M m p, 0 <= M -> 0 <= m < 256 -> 0 <= p < 256 ->
    simd_version (M * 65536 + m * 256 + p) = mkversion M m p.
Proof. exact version_encode. Qed.
Print Assumptions C34_version_decode.

(** ... and the order of the versions is the order of the version numbers. *)
Theorem C34_version_number_order :
  forall v w, 0 <= v -> 0 <= w -> (lex_lt (simd_version v) (simd_version w) <-> v < w).
Proof. exact version_number_order. Qed.
Print Assumptions C34_version_number_order.

(** VIR_SIMD_VERSION 0x0'04'bd *)
Example C34_instance :
  simd_version 1213 = mkversion 0 4 189 /\ v_lt true (simd_version 1213) (mkversion 0 5 0) = true
  /\ v_ge false (simd_version 1213) (mkversion 0 4 0) = true.
Proof. repeat split. Qed.
