(* What a user of merged blocks relies on. *)

From Coq Require Import Arith ZArith List Bool Lia.
From Verif Require Import MergeModel.
Import ListNotations.

Local Open Scope nat_scope.

(* [x] as element number [n] of the list. *)
Fixpoint insertAt {B : Type} (n : nat) (x : B) (l : list B) : list B :=
  match n, l with
  | 0, _ => x :: l
  | S n', y :: r => y :: insertAt n' x r
  | S _, [] => [x]
  end.

Fixpoint zip {B C D : Type} (f : B -> C -> D) (l : list B) (k : list C) : list D :=
  match l, k with b :: l', c :: k' => f b c :: zip f l' k' | _, _ => [] end.

Section Spec.
Context {X A : Type} (d : A).

(* The blocks keep to their numbers of outputs; the connected ports exist. *)
Definition goodLeaf (b : leaf (X := X) (A := A)) : Prop := forall x ins, length ins = nI b -> length (snd (fn b x ins)) = nO b.
Fixpoint good (t : blk (X := X) (A := A)) : Prop :=
  match t with
  | Leaf b => goodLeaf b
  | Merge l o r i => good l /\ good r /\ o < nOut l /\ i < nIn r
  end.

(* A graph of blocks during one sample: each block's inputs and outputs. *)
Definition portIn (w : list (list A * list A)) (p : nat * nat) : A := nth (snd p) (fst (nth (fst p) w ([], []))) d.
Definition portOut (w : list (list A * list A)) (p : nat * nat) : A := nth (snd p) (snd (nth (fst p) w ([], []))) d.

(* Every block computes its outputs from its inputs; every edge carries its
   value; the inputs of the outside are [ins]. *)
Definition settles (g : net (X := X) (A := A)) (st : list X) (ins : list A) (w : list (list A * list A)) (st' : list X) : Prop :=
  length w = length (nodes g) /\ length st = length (nodes g) /\ length st' = length (nodes g) /\
  (forall k b io x x', nth_error (nodes g) k = Some b -> nth_error w k = Some io -> nth_error st k = Some x -> nth_error st' k = Some x' ->
     length (fst io) = nI b /\ fn b x (fst io) = (x', snd io)) /\
  Forall (fun e => portIn w (snd e) = portOut w (fst e)) (edges g) /\
  map (portIn w) (inps g) = ins.
End Spec.
