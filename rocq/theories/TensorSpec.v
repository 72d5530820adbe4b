(* What a user of tensors relies on: a tensor is a function from index tuples
   to elements. *)

From Coq Require Import Arith List Bool Lia.
From Verif Require Import TensorModel.
Import ListNotations.

Local Open Scope nat_scope.

(* An index tuple fits the extents. *)
Definition fits (idx e : list nat) : Prop := Forall2 lt idx e.

(* All index tuples, the last index moving fastest. *)
Fixpoint tuples (e : list nat) : list (list nat) :=
  match e with
  | [] => [[]]
  | x :: r => flat_map (fun i => map (cons i) (tuples r)) (seq 0 x)
  end.

(* The cell of an index tuple: offset plus index times stride, summed. *)
Fixpoint place (idx s : list nat) : nat :=
  match idx, s with i :: r, t :: q => i * t + place r q | _, _ => 0 end.
Definition cellAt (v : view) (idx : list nat) : nat := off v + place idx (str v).

(* Number of index tuples. *)
Definition count (e : list nat) : nat := length (tuples e).

(* One stride for each extent, the size is the number of tuples. *)
Definition sound (v : view) : Prop := length (str v) = length (ext v) /\ len v = count (ext v).

(* In row-major order without gaps. *)
Fixpoint rowMajor (e s : list nat) : Prop :=
  match e, s with
  | [], [] => True
  | _ :: r, t :: q => t = count r /\ rowMajor r q
  | _, _ => False
  end.

(* Ranges [a, b) of the first dimensions: they lie in the extents; the index
   tuple of the whole for one of the part; the tuples of the part. *)
Fixpoint shift (rs : list (nat * nat)) (idx : list nat) : list nat :=
  match rs, idx with (a, _) :: rs', i :: r => (a + i) :: shift rs' r | _, _ => idx end.
Fixpoint within (rs : list (nat * nat)) (j : list nat) : Prop :=
  match rs, j with (a, b) :: rs', i :: r => a <= i < b /\ within rs' r | _, _ => True end.
Fixpoint goodRanges (rs : list (nat * nat)) (e : list nat) : Prop :=
  match rs, e with
  | [], _ => True
  | (a, b) :: rs', x :: r => a <= b <= x /\ goodRanges rs' r
  | _, _ => False
  end.

