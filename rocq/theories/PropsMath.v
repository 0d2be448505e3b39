(** Property theorems C43 (math functions). *)
From Verif Require Import Base LaneModel LaneProofs IntModel IntProofs IntSpec MathModel MathProofs.

(** C43.  A math function applies the scalar function to each lane; it is undefined exactly if the
    scalar function is undefined on some lane. *)
Theorem C43_one_argument :
  forall A R (f : A -> res R) x, (forall a s, f a = Stop s -> s = SUB) ->
    (forall r, math1 f x = Ok r <->
       length r = length x /\ forall i a, nth_error x i = Some a -> exists b, f a = Ok b /\ nth_error r i = Some b)
    /\ (math1 f x = Stop SUB <-> exists i a, nth_error x i = Some a /\ f a = Stop SUB)
    /\ forall s, math1 f x = Stop s -> s = SUB.
Proof. exact @math1_lanes. Qed.
Print Assumptions C43_one_argument.

Theorem C43_two_arguments :
  forall A B R (f : A -> B -> res R) x y, length x = length y -> forall r,
    math2 f x y = Ok r <->
    length r = length x /\ forall i a b, nth_error x i = Some a -> nth_error y i = Some b ->
      exists c, f a b = Ok c /\ nth_error r i = Some c.
Proof. exact @math2_lanes. Qed.
Print Assumptions C43_two_arguments.

Theorem C43_three_arguments :
  forall A B C R (f : A -> B -> C -> res R) x y z, length x = length y -> length x = length z -> forall r,
    math3 f x y z = Ok r <->
    length r = length x /\ forall i a b c, nth_error x i = Some a -> nth_error y i = Some b -> nth_error z i = Some c ->
      exists d, f a b c = Ok d /\ nth_error r i = Some d.
Proof. exact @math3_lanes. Qed.
Print Assumptions C43_three_arguments.

Theorem C43_two_arguments_undefined :
  forall A B R (f : A -> B -> res R) x y, length x = length y -> (forall a b s, f a b = Stop s -> s = SUB) ->
    (math2 f x y = Stop SUB <-> exists i a b, nth_error x i = Some a /\ nth_error y i = Some b /\ f a b = Stop SUB)
    /\ forall s, math2 f x y = Stop s -> s = SUB.
Proof. exact @math2_ub. Qed.
Print Assumptions C43_two_arguments_undefined.

Theorem C43_three_arguments_undefined :
  forall A B C R (f : A -> B -> C -> res R) x y z, length x = length y -> length x = length z ->
    (forall a b c s, f a b c = Stop s -> s = SUB) ->
    (math3 f x y z = Stop SUB <->
     exists i a b c, nth_error x i = Some a /\ nth_error y i = Some b /\ nth_error z i = Some c /\ f a b c = Stop SUB)
    /\ forall s, math3 f x y z = Stop s -> s = SUB.
Proof. exact @math3_ub. Qed.
Print Assumptions C43_three_arguments_undefined.

Example C43_argument_order :
  math1 (fun a => if a <? 0 then Stop SUB else Ok (Z.sqrt a)) [9; 0; 50] = Ok [3; 0; 7]
  /\ math1 (fun a => if a <? 0 then Stop SUB else Ok (Z.sqrt a)) [9; -1; 50] = Stop SUB
  /\ math2 (fun a b => Ok (a - b)) [7; 5] [1; 9] = Ok [6; -4]
  /\ math2 (fun a b => if b =? 0 then Stop SUB else Ok (a / b)) [7; 5] [1; 0] = Stop SUB
  /\ math3 (fun a b c => Ok (a * b - c)) [7; 5] [2; 3] [1; 4] = Ok [13; 11].
Proof. repeat split. Qed.

(** modf, frexp and remquo also write lane i of the output object and nothing else of it. *)
Theorem C43_output_one_argument :
  forall A R Out (f : A -> res (R * Out)) x out r out', length out = length x ->
    (math1_out f x out = Ok (r, out') <->
     length r = length x /\ length out' = length x /\
     forall i a, nth_error x i = Some a ->
       exists b o, f a = Ok (b, o) /\ nth_error r i = Some b /\ nth_error out' i = Some o).
Proof. exact @math1_out_lanes. Qed.
Print Assumptions C43_output_one_argument.

Theorem C43_output_two_arguments :
  forall A B R Out (f : A -> B -> res (R * Out)) x y out r out', length out = length x -> length y = length x ->
    (math2_out f x y out = Ok (r, out') <->
     length r = length x /\ length out' = length x /\
     forall i a b, nth_error x i = Some a -> nth_error y i = Some b ->
       exists c o, f a b = Ok (c, o) /\ nth_error r i = Some c /\ nth_error out' i = Some o).
Proof. exact @math2_out_lanes. Qed.
Print Assumptions C43_output_two_arguments.

Theorem C43_output_one_argument_undefined :
  forall A R Out (f : A -> res (R * Out)) x out, length out = length x -> (forall a s, f a = Stop s -> s = SUB) ->
    (math1_out f x out = Stop SUB <-> exists i a, nth_error x i = Some a /\ f a = Stop SUB)
    /\ forall s, math1_out f x out = Stop s -> s = SUB.
Proof. exact @math1_out_ub. Qed.
Print Assumptions C43_output_one_argument_undefined.

Theorem C43_output_two_arguments_undefined :
  forall A B R Out (f : A -> B -> res (R * Out)) x y out, length out = length x -> length y = length x ->
    (forall a b s, f a b = Stop s -> s = SUB) ->
    (math2_out f x y out = Stop SUB <->
     exists i a b, nth_error x i = Some a /\ nth_error y i = Some b /\ f a b = Stop SUB)
    /\ forall s, math2_out f x y out = Stop s -> s = SUB.
Proof. exact @math2_out_ub. Qed.
Print Assumptions C43_output_two_arguments_undefined.

(** modf(x, &x) gives the same as with a separate output object. *)
Theorem C43_modf_in_place :
  forall R T (f : T -> res (R * T)) x out r out', length out = length x ->
    (modf_alias f x = Ok (r, out') <-> math1_out f x out = Ok (r, out')).
Proof. exact @modf_alias_same. Qed.
Print Assumptions C43_modf_in_place.

Example C43_output_cases :
  math1_out (fun a => Ok (a mod 10, a / 10)) [37; 52] [0; 0] = Ok ([7; 2], [3; 5])
  /\ modf_alias (fun a => Ok (a mod 10, a / 10)) [37; 52] = Ok ([7; 2], [3; 5])
  /\ math2_out (fun a b => Ok (a mod b, a / b)) [37; 52] [5; 10] [0; 0] = Ok ([2; 2], [7; 5]).
Proof. repeat split. Qed.

(** abs on signed integers: |x| in every lane, except for the lowest value of T, which is returned
    unchanged if T is narrower than int and undefined otherwise. *)
Theorem C43_abs_integer :
  forall l t x, lang_ok l -> type_ok t -> sgn t = true -> (forall a, In a x -> value_of t a) ->
    (bits t < l_int l ->
       exists r, simd_abs l t x = Ok r /\ length r = length x
         /\ forall i a, nth_error x i = Some a ->
              nth_error r i = Some (if a =? - 2 ^ (bits t - 1) then a else Z.abs a))
    /\ (l_int l <= bits t ->
        (forall r, simd_abs l t x = Ok r <-> ~ In (- 2 ^ (bits t - 1)) x /\ r = map Z.abs x)
        /\ (simd_abs l t x = Stop SUB <-> In (- 2 ^ (bits t - 1)) x)).
Proof. exact abs_lanes. Qed.
Print Assumptions C43_abs_integer.

(** A defined result of abs need not be the absolute value. *)
Theorem C43_abs_nonnegative_refuted :
  exists l t x r, lang_ok l /\ type_ok t /\ sgn t = true /\ (forall a, In a x -> value_of t a)
    /\ simd_abs l t x = Ok r /\ exists a, In a r /\ a < 0.
Proof. exact abs_negative. Qed.
Print Assumptions C43_abs_nonnegative_refuted.
