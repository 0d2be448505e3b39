(** Model of the vir::transform overload for std::ranges::zip_view, vir/simd_execution.h:1251-1271.
    All ranges have elements of one type; iterators are addresses, as everywhere in the Transform model. *)
From Verif Require Import Base ExecModel TransformModel.

(** A contiguous range: std::ranges::begin and std::ranges::size. *)
Record zrange := mkzrange { z_begin : Z; z_size : Z }.

(** What the callable receives, simd_execution.h:1262-1267: a std::pair of two arguments, otherwise a
    std::tuple. *)
Inductive zarg (X : Type) := ZPair (x y : X) | ZTuple (l : list X).
Arguments ZPair {X}.
Arguments ZTuple {X}.

Definition pack {X} (vs : list X) : zarg X :=
  match vs with [x; y] => ZPair x y | _ => ZTuple vs end.

(** std::ranges::size of the view, simd_execution.h:1256: the smallest size. *)
Fixpoint zip_size (r : zrange) (rs : list zrange) : Z :=
  match rs with
  | [] => z_size r
  | r' :: rs' => Z.min (z_size r) (zip_size r' rs')
  end.

Section Zip.
  Context {T : Type}.
  Variable op : zarg (list T) -> list T.

  (** [*it], simd_execution.h:1258 and 1268: dereferences the begin of every range. *)
  Fixpoint deref_begin (m : mem T) (rs : list zrange) : res unit :=
    match rs with
    | [] => Ok tt
    | r :: rs' => match m (z_begin r) with Some _ => deref_begin m rs' | None => Stop SUB end
    end.

  (** simd_execution.h:1251-1271; std::get<0> of an empty view does not compile. *)
  Definition zip_transform (c : cfg) (pol : policy) (w : Z) (rs : list zrange) (dst : Z) (m : mem T)
    : res (mem T * Z) :=
    match rs with
    | [] => Stop SIllFormed
    | r :: rs' =>
      bindR (deref_begin m rs) (fun _ =>
      run_transform (fun vs => op (pack vs)) c pol w (z_begin r) (z_begin r + zip_size r rs') dst
                    (map z_begin rs') m)
    end.
End Zip.
