(** What an arena promises. *)
From Coq Require Import List NArith Bool.
From Verif Require Import AllocModel.
Import ListNotations.
Local Open Scope N_scope.

Inductive request := Alloc (bytes alignment : N) | Free | Reset.
(** The blocks handed out since the last reset, newest first. *)
Fixpoint run (a : arena) (blocks : list (N * N)) (l : list request) : arena * list (N * N) :=
  match l with
  | [] => (a, blocks)
  | Alloc n al :: r => let (a', o) := allocate a n al in run a' (match o with Some p => (p, n) :: blocks | None => blocks end) r
  | Free :: r => run (deallocate a) blocks r
  | Reset :: r => run (reset a) [] r
  end.
Definition powerOfTwo (x : N) : Prop := exists k, x = 2 ^ k /\ k < 64.
Definition wellFormed (l : list request) : Prop := Forall (fun r => match r with Alloc _ al => powerOfTwo al | _ => True end) l.
Definition apart (x y : N * N) : Prop := fst x + snd x <= fst y \/ fst y + snd y <= fst x.
Definition within (d c : N) (x : N * N) : Prop := d <= fst x /\ fst x + snd x <= d + c.
