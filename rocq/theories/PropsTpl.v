(** Property theorems C60: which structs are vectorized by their template arguments. *)
From Verif Require Import Base TplModel TplSpec TplProofs.

(** C60.  The concept decides whether simdized arguments give the layout of simdized members.  Missing: structs with
    structs as members, arguments other than types or one type followed by values. *)
Theorem C60_layout_partial :
  forall simd_of tpl args n ts ttup, comparable simd_of tpl args n ts ttup -> argument_shape args ->
    flat ts -> flat ttup ->
    exists b, vectorizable_struct_template simd_of tpl args (Some n) = Ok b /\ (b = true <-> same_layout ts ttup).
Proof.
  intros simd_of tpl args n ts ttup C S F1 F2.
  destruct (concept_flat simd_of tpl args n ts ttup C F1 F2) as (b & Hb & E). exists b. split; [exact Hb|tauto].
Qed.
Print Assumptions C60_layout_partial.

(** Where it holds the layouts agree, nested structs or not. *)
Theorem C60_sound_partial :
  forall simd_of tpl args n ts ttup, comparable simd_of tpl args n ts ttup ->
    vectorizable_struct_template simd_of tpl args (Some n) = Ok true -> same_layout ts ttup.
Proof. exact concept_sound. Qed.
Print Assumptions C60_sound_partial.

(** Exactly when it holds. *)
Theorem C60_layout_iff :
  forall simd_of tpl args n ts ttup, comparable simd_of tpl args n ts ttup ->
    exists b, vectorizable_struct_template simd_of tpl args (Some n) = Ok b
      /\ (b = true <-> argument_shape args /\ found_equal ts ttup).
Proof. exact concept_found. Qed.
Print Assumptions C60_layout_iff.

(** An argument that cannot be simdized. *)
Theorem C60_not_simdizable :
  forall simd_of tpl args n, replaced simd_of n args = None ->
    vectorizable_struct_template simd_of tpl args (Some n) = Ok false.
Proof. exact not_simdizable. Qed.
Print Assumptions C60_not_simdizable.

(** template <class T> struct Line { Point<T> a, b; }; and
    template <class T, class U, int> struct S { T a; U b; }; have the layout, and are not found. *)
Theorem C60_layout_refuted :
  (exists simd_of tpl args n ts ttup, comparable simd_of tpl args n ts ttup /\ argument_shape args
     /\ same_layout ts ttup /\ vectorizable_struct_template simd_of tpl args (Some n) = Ok false)
  /\ (exists simd_of tpl args n ts ttup, comparable simd_of tpl args n ts ttup /\ flat ts /\ flat ttup
     /\ same_layout ts ttup /\ vectorizable_struct_template simd_of tpl args (Some n) = Ok false).
Proof.
  split.
  - exists (fun t n => match t with
                       | TLeaf x => Some (TLeaf (x + n))
                       | TStruct x [TLeaf a; TLeaf b] => Some (TStruct (x + 1000) [TLeaf (a + n); TLeaf (b + n)])
                       | _ => None
                       end),
           (fun args => match args with
                        | [TType (TLeaf x)] => TStruct 2 [TStruct (100 + x) [TLeaf x; TLeaf x];
                                                          TStruct (100 + x) [TLeaf x; TLeaf x] ]
                        | _ => TLeaf 0
                        end),
           [TType (TLeaf 1)], 8,
           (TStruct 2 [TStruct 109 [TLeaf 9; TLeaf 9]; TStruct 109 [TLeaf 9; TLeaf 9] ]),
           (TStruct 0 [TStruct 1101 [TLeaf 9; TLeaf 9]; TStruct 1101 [TLeaf 9; TLeaf 9] ]).
    split; [constructor|split; [|split; reflexivity] ].
    + reflexivity.
    + reflexivity.
    + do 3 eexists. split; [reflexivity|split; [reflexivity|split; [reflexivity|split; [reflexivity|] ] ] ].
      constructor; [reflexivity|constructor; [reflexivity|constructor] ].
    + cbn. intuition discriminate.
    + split; reflexivity.
    + left. intros v [H | []]. discriminate.
  - exists (fun t n => match t with TLeaf x => Some (TLeaf (x + n)) | _ => None end),
           (fun args => match args with
                        | [TType t; TType u; TValue _] => TStruct 2 [t; u]
                        | _ => TLeaf 0
                        end),
           [TType (TLeaf 1); TType (TLeaf 2); TValue 3], 8,
           (TStruct 2 [TLeaf 9; TLeaf 10]), (TStruct 0 [TLeaf 9; TLeaf 10]).
    split; [constructor|split; [|split; [|split; reflexivity] ] ].
    + reflexivity.
    + reflexivity.
    + do 3 eexists. split; [reflexivity|split; [reflexivity|split; [reflexivity|split; [reflexivity|] ] ] ].
      constructor; [reflexivity|constructor; [reflexivity|constructor] ].
    + cbn. intuition discriminate.
    + split; reflexivity.
    + do 2 eexists. split; [reflexivity|split; [discriminate|] ]. eauto.
    + do 2 eexists. split; [reflexivity|split; [discriminate|] ]. eauto.
Qed.
Print Assumptions C60_layout_refuted.

(** Nor is template <class T> struct W { T x[1]; }; whose member is an array of one. *)
Theorem C60_one_element_refuted :
  exists simd_of tpl args n ts ttup, comparable simd_of tpl args n ts ttup /\ argument_shape args
     /\ length (leaves ts) = 1%nat
     /\ same_layout ts ttup /\ vectorizable_struct_template simd_of tpl args (Some n) = Ok false.
Proof.
  exists (fun t n => match t with
                     | TLeaf x => Some (TLeaf (x + n))
                     | TStruct x [TLeaf a] => Some (TStruct (x + 1000) [TLeaf (a + n)])
                     | _ => None
                     end),
         (fun args => match args with
                      | [TType (TLeaf x)] => TStruct 2 [TStruct (100 + x) [TLeaf x] ]
                      | _ => TLeaf 0
                      end),
         [TType (TLeaf 1)], 8, (TStruct 2 [TStruct 109 [TLeaf 9] ]), (TStruct 0 [TStruct 1101 [TLeaf 9] ]).
  split; [constructor|split; [|split; [reflexivity|split; reflexivity] ] ].
  - reflexivity.
  - reflexivity.
  - do 3 eexists. split; [reflexivity|split; [reflexivity|split; [reflexivity|split; [reflexivity|] ] ] ].
    constructor; [reflexivity|constructor].
  - cbn. intuition discriminate.
  - split; reflexivity.
  - left. intros v [H | []]. discriminate.
Qed.
Print Assumptions C60_one_element_refuted.

(** A struct that grows with its argument, template <class T> struct G { T x[sizeof(T) / 2]; }; with T = float,
    is accepted although its layout is another one. *)
Theorem C60_sound_refuted :
  exists simd_of tpl args n ts ttup ms us,
    option_map tpl (replaced simd_of n args) = Some ts /\ 0 < n /\ argument_shape args
    /\ members (tpl args) = Some ms /\ members ttup = Some us /\ Forall2 (fun m u => simd_of m n = Some u) ms us
    /\ nonempty (tpl args) /\ nonempty ts /\ nonempty ttup
    /\ vectorizable_struct_template simd_of tpl args (Some n) = Ok true /\ ~ same_layout ts ttup.
Proof.
  exists (fun t n => match t with
                     | TLeaf x => Some (TLeaf (x + n))
                     | TStruct x [TLeaf a; TLeaf b] => Some (TStruct (x + 1000) [TLeaf (a + n); TLeaf (b + n)])
                     | _ => None
                     end),
         (fun args => match args with
                      | [TType (TLeaf x)] =>
                          TStruct 2 [TStruct (100 + x) (repeat (TLeaf x) (if x <? 4 then 2 else 8)) ]
                      | _ => TLeaf 0
                      end),
         [TType (TLeaf 1)], 4,
         (TStruct 2 [TStruct 105 (repeat (TLeaf 5) 8)]),
         (TStruct 0 [TStruct 1101 [TLeaf 5; TLeaf 5] ]),
         [TStruct 101 [TLeaf 1; TLeaf 1] ], [TStruct 1101 [TLeaf 5; TLeaf 5] ].
  split; [reflexivity|]. split; [reflexivity|].
  split; [left; intros v [H | []]; discriminate|].
  split; [reflexivity|]. split; [reflexivity|].
  split; [constructor; [reflexivity|constructor]|].
  split; [cbn; intuition discriminate|]. split; [cbn; intuition discriminate|]. split; [cbn; intuition discriminate|].
  split; [reflexivity|]. discriminate.
Qed.
Print Assumptions C60_sound_refuted.

(** Point<float> { T x, y; } with simds named 9. *)
Example C60_example :
  vectorizable_struct_template
    (fun t n => match t with TLeaf x => Some (TLeaf (x + n)) | _ => None end)
    (fun args => match args with [TType t] => TStruct 2 [t; t] | _ => TLeaf 0 end) [TType (TLeaf 1)] (Some 8) = Ok true
  /\ vectorizable_struct_template
    (fun t n => match t with TLeaf x => Some (TLeaf (x + n)) | _ => None end)
    (fun args => match args with [TType t] => TStruct 2 [t; TLeaf 7] | _ => TLeaf 0 end) [TType (TLeaf 1)] (Some 8)
    = Ok false.
Proof. split; reflexivity. Qed.
