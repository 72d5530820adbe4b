(* What users expect of the tags of the counting source. *)

From Coq Require Import ZArith Bool Lia List.
From Verif Require Import TickModel.
Import ListNotations.

Local Open Scope Z_scope.

(* Strictly ascending places that 32 bits hold. *)
Definition places (l : list Z) : Prop :=
  (forall i x, nth_error l i = Some x -> 0 <= x < 2 ^ 32 - 1) /\
  (forall i x y, nth_error l i = Some x -> nth_error l (S i) = Some y -> x < y).
(* The list of times is not one that ends at time 0. *)
Definition later (c : conf) : Prop := timed c = [] \/ 0 < lastTime c.
Definition apart (a b : list Z) : Prop := forall x, In x a -> In x b -> False.

Definition place (o : out) : Z := match o with Mark _ p => p | Timed _ p => p end.
(* The tag is where its list says. *)
Definition exact (c : conf) (o : out) : Prop :=
  match o with
  | Mark i p => nth_error (marks c) i = Some p
  | Timed i p => nth_error (timed c) i = Some p
  end.
(* The tags of one list, by number. *)
Definition marksOf (os : list out) : list nat := flat_map (fun o => match o with Mark i _ => [i] | _ => [] end) os.
Definition timedOf (os : list out) : list nat := flat_map (fun o => match o with Timed i _ => [i] | _ => [] end) os.
