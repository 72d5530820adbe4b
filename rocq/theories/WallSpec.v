(* What users expect of the count by the clock. *)

From Coq Require Import ZArith Bool Lia List.
From Verif Require Import WallModel.
Import ListNotations.

Local Open Scope Z_scope.

(* The clock does not go back. *)
Fixpoint onwards (from : Z) (l : list ask) : Prop :=
  match l with [] => True | a :: r => from <= at_ a /\ 0 <= room a /\ onwards (at_ a) r end.
(* The time of the last call. *)
Definition until (from : Z) (l : list ask) : Z := last (map at_ l) from.
(* From one call to the next less than the time of one sample passes. *)
Fixpoint frequent (rate from : Z) (l : list ask) : Prop :=
  match l with [] => True | a :: r => (at_ a - from) * rate < giga /\ frequent rate (at_ a) r end.
