(* What a user of the Schmitt trigger relies on. *)

From Coq Require Import ZArith List Bool Lia.
From Verif Require Import SchmittModel.
Import ListNotations.

Local Open Scope Z_scope.

(* The side of the newest sample at or outside the thresholds; low if none. *)
Fixpoint side (l u : Z) (newestFirst : list Z) : bool :=
  match newestFirst with
  | [] => false
  | x :: r => if u <=? x then true else if x <=? l then false else side l u r
  end.

(* The edge between two sides. *)
Definition between (a b : bool) : edge := match a, b with false, true => ERising | true, false => EFalling | _, _ => ENone end.

(* The edges that happened, without the samples that have none. *)
Definition real (es : list edge) : list edge := filter (fun e => match e with ENone => false | _ => true end) es.
Fixpoint alternate (next : edge) (es : list edge) : Prop :=
  match es with [] => True | e :: r => e = next /\ alternate (match e with ERising => EFalling | _ => ERising end) r end.

(* Samples since the last edge; None without edge. *)
Fixpoint since (newestFirst : list edge) : option nat :=
  match newestFirst with
  | [] => None
  | ENone :: r => option_map S (since r)
  | _ :: _ => Some 0%nat
  end.

(* The named edges with their positions and times, first sample number [i] at
   time [t]. *)
Fixpoint tagsOf (names : bool * bool) (period : Z) (i : nat) (t : Z) (es : list edge) : list tag :=
  match es with
  | [] => []
  | e :: r => (if named names e then [(i, e, t + period)] else []) ++ tagsOf names period (S i) (t + period) r
  end.
