(* Model of multi-dimensional tensors and views:
   /repo/core/include/gnuradio-4.0/Tensor.hpp ("TE" below), dynamic extents.

   Simplified: sizes and offsets are unbounded except in [product]; the rank is
   not limited to kMaxRank; elements are of any type A; assertions are not
   modelled. *)

From Coq Require Import Arith List Bool Lia.
Import ListNotations.

Local Open Scope nat_scope.

Section Tensor.
Context {A : Type}.

(* A tensor or view: extents, strides (TE:192-196), the offset of its first
   element in the memory it refers to (_data._data) and its size
   (_data._size). An owning tensor has offset 0 and all of its memory. *)
Record view : Type := mkV { ext : list nat; str : list nat; off : nat; len : nat }.

(* recomputeStrides.  TE:234-245 *)
Fixpoint strides (e : list nat) : list nat :=
  match e with
  | [] => []
  | _ :: r => match r with
              | [] => [1]
              | f :: _ => let s := strides r in (hd 1 s * f) :: s
              end
  end.

(* product: None if it throws; [mx] is the largest std::size_t.  TE:247-261 *)
Fixpoint productFrom (mx n : nat) (e : list nat) : option nat :=
  match e with
  | [] => Some n
  | x :: r => if negb (x =? 0) && (mx / x <? n) then None else productFrom mx (n * x) r
  end.
Definition product (mx : nat) (e : list nat) : option nat := productFrom mx 1 e.

(* The sum of the products of indices and strides.  TE:299-305 *)
Fixpoint dot (idx s : list nat) : nat :=
  match idx, s with i :: r, t :: q => i * t + dot r q | _, _ => 0 end.

(* index_of.  TE:295-306 *)
Definition indexOf (v : view) (idx : list nat) : nat :=
  match idx with [k] => k | _ => dot idx (str v) end.

(* bounds_check: whether it returns.  TE:263-292 *)
Fixpoint below (idx e : list nat) : bool :=
  match idx, e with
  | [], [] => true
  | i :: r, x :: q => (i <? x) && below r q
  | _, _ => false
  end.
Definition boundsCheck (v : view) (idx : list nat) : bool :=
  match idx with [k] => k <? len v | _ => (length idx =? length (ext v)) && below idx (ext v) end.

(* The cell that at(idx) refers to, None if it throws.  TE:592-605 *)
Definition at_ (v : view) (idx : list nat) : option nat :=
  if boundsCheck v idx then Some (off v + indexOf v idx) else None.

(* Dereferencing the iterator at position [k]: coord of each dimension times
   its stride.  TE:482-496 *)
Definition coord (k e : nat) (r : list nat) : nat := fold_left (fun c x => c / x) r k mod e.
Fixpoint iterOff (k : nat) (e s : list nat) : nat :=
  match e, s with
  | x :: r, t :: q => coord k x r * t + iterOff k r q
  | _, _ => 0
  end.
(* The cells from begin() to end().  For owning tensors the iterator is that of
   the memory (TE:518, 533-547), see [cellsOwn]. *)
Definition cells (v : view) : list nat := map (fun k => off v + iterOff k (ext v) (str v)) (seq 0 (len v)).
Definition cellsOwn (v : view) : list nat := seq (off v) (len v).

(* slice; for extents and strides of equal length.  TE:725-749 *)
Fixpoint sliceDims (e s : list nat) (rs : list (nat * nat)) : list nat * nat :=
  match e, s with
  | x :: e', t :: s' =>
      match rs with
      | (a, b) :: rs' => let '(ne, o) := sliceDims e' s' rs' in ((b - a) :: ne, a * t + o)
      | [] => let '(ne, o) := sliceDims e' s' [] in (x :: ne, o)
      end
  | _, _ => ([], 0)
  end.
Definition prodE (e : list nat) : nat := fold_right Nat.mul 1 e.
(* The size is checked_size(extents) of the new view (TE:1924); it cannot throw
   as it does not exceed that of the tensor, so it is the plain product. *)
Definition slice (v : view) (rs : list (nat * nat)) : view :=
  let '(ne, o) := sliceDims (ext v) (str v) rs in mkV ne (str v) (off v + o) (prodE ne).

(* transpose.  TE:779-811 *)
Definition transpose (v : view) : view := mkV (rev (ext v)) (rev (str v)) (off v) (prodE (rev (ext v))).
Definition pick (axes l : list nat) : list nat := map (fun a => nth a l 0) axes.
Definition transposeBy (v : view) (axes : list nat) : view :=
  mkV (pick axes (ext v)) (pick axes (str v)) (off v) (prodE (pick axes (ext v))).

(* reshape: None if it throws.  TE:707-723 *)
Definition reshape (mx : nat) (v : view) (ne : list nat) : option view :=
  match product mx ne with
  | Some n => if n =? len v then Some (mkV ne (strides ne) (off v) (len v)) else None
  | None => None
  end.

(* is_contiguous.  TE:436-453 *)
Fixpoint contiguousFrom (e s : list nat) : bool :=
  match e, s with
  | _ :: r, t :: q => match r, q with
                      | f :: _, u :: _ => (t =? u * f) && contiguousFrom r q
                      | _, _ => t =? 1
                      end
  | _, _ => true
  end.
Definition isContiguous (v : view) : bool := contiguousFrom (ext v) (str v).

(* fill: the cells written.  TE:619-627 *)
Definition fillCells (v : view) : list nat := seq (off v) (len v).

(* An owning tensor and its memory. *)
Record own : Type := mkO { oExt : list nat; oStr : list nat; oMem : list A }.
Definition viewOf (o : own) : view := mkV (oExt o) (oStr o) 0 (length (oMem o)).

(* Conversion of a tensor or view over memory [m] to an owning tensor: extents
   and elements in order of iteration.  TE:691-698, 2005-2025 *)
Definition copyOf (d : A) (m : list A) (v : view) : own :=
  mkO (ext v) (strides (ext v)) (map (fun c => nth c m d) (cells v)).

(* resize: the state afterwards and whether it returned; the rank is set before
   product may throw.  Extents beyond the former rank are what was in the
   array, zero here.  TE:369-380 *)
Definition setRank (n : nat) (l : list nat) : list nat := firstn n l ++ repeat 0 (n - length l).
Definition resize (mx : nat) (o : own) (ne : list nat) (x : A) : own * bool :=
  match ne with
  | [] => (mkO [] [] [], true)
  | _ => match product mx ne with
         | None => (mkO (setRank (length ne) (oExt o)) (setRank (length ne) (oStr o)) (oMem o), false)
         | Some n => (mkO ne (strides ne) (repeat x n), true)
         end
  end.

(* resize_dim: the extent is set before product may throw; the memory grows
   or shrinks at its end.  TE:342-363 *)
Fixpoint setNth (n x : nat) (l : list nat) : list nat :=
  match l, n with
  | [], _ => []
  | _ :: r, 0 => x :: r
  | y :: r, S n' => y :: setNth n' x r
  end.
Definition resizeDim (mx : nat) (o : own) (dim x : nat) (z : A) : own * bool :=
  if length (oExt o) <=? dim then (o, false)
  else if nth dim (oExt o) 0 =? x then (o, true)
  else
    let ne := setNth dim x (oExt o) in
    match product mx ne with
    | None => (mkO ne (oStr o) (oMem o), false)
    | Some n => (mkO ne (strides ne) (firstn n (oMem o) ++ repeat z (n - length (oMem o))), true)
    end.

(* operator== of two tensors or views.  TE:834-849 *)
Fixpoint listEq {B : Type} (eqb : B -> B -> bool) (l k : list B) : bool :=
  match l, k with [], [] => true | a :: l', b :: k' => eqb a b && listEq eqb l' k' | _, _ => false end.
Definition equal (eqb : A -> A -> bool) (d : A) (m1 : list A) (v1 : view) (m2 : list A) (v2 : view) : bool :=
  listEq Nat.eqb (ext v1) (ext v2)
  && listEq eqb (map (fun c => nth c m1 d) (cells v1)) (map (fun c => nth c m2 d) (cells v2)).
End Tensor.
Arguments own : clear implicits.
