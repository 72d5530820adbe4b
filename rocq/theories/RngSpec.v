(* What users expect of the generator. *)

From Coq Require Import NArith ZArith Bool Lia List.
From Verif Require Import RngModel.
Import ListNotations.

Local Open Scope N_scope.

Definition zero : xs := mkX 0 0 0 0.
(* All four words have 64 bits. *)
Definition words (s : xs) : Prop := a0 s < 2 ^ 64 /\ a1 s < 2 ^ 64 /\ a2 s < 2 ^ 64 /\ a3 s < 2 ^ 64.

(* The published generator, in arithmetic: rotation by k places to the left. *)
Definition turned (x k : N) : N := (x * 2 ^ k) mod 2 ^ 64 + x / 2 ^ (64 - k).
Definition published_number (s : xs) : N := (turned ((a0 s + a3 s) mod 2 ^ 64) 23 + a0 s) mod 2 ^ 64.
(* The four words after it, as exclusive ors of those before. *)
Definition published_state (s t : xs) : Prop :=
  a0 t = N.lxor (a0 s) (N.lxor (a1 s) (a3 s)) /\
  a1 t = N.lxor (a0 s) (N.lxor (a1 s) (a2 s)) /\
  a2 t = N.lxor (a0 s) (N.lxor (a2 s) ((a1 s * 2 ^ 17) mod 2 ^ 64)) /\
  a3 t = turned (N.lxor (a1 s) (a3 s)) 45.
(* The numbers drawn one by one. *)
Inductive draws : xs -> list N -> xs -> Prop :=
| draws_none : forall s, draws s [] s
| draws_more : forall s t u l, published_state s t -> draws t l u -> draws s (published_number s :: l) u.

(* The published splitmix64 of a counter. *)
Definition stirred (x k : N) : N := N.lxor x (x / 2 ^ k).
Definition published_mix (x : N) : N :=
  stirred ((stirred ((stirred x 30 * 0xbf58476d1ce4e5b9) mod 2 ^ 64) 27 * 0x94d049bb133111eb) mod 2 ^ 64) 31.
Definition golden : N := 0x9e3779b97f4a7c15.
