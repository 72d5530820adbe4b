(* What users expect of the envelope. *)

From Coq Require Import ZArith Bool Lia List.
From Verif Require Import TaperModel.
Import ListNotations.

Local Open Scope nat_scope.

(* The falling ramp is the rising one backwards. *)
Definition mirrored (c : cfg) : Prop := fall c = rev (rise c).

(* n samples, one call each. *)
Fixpoint ones (n : nat) : list op := match n with 0 => [] | S k => One :: ones k end.

(* No step between neighbours is larger than d. *)
Definition smooth (d : Z) (l : list Z) : Prop :=
  forall i x y, nth_error l i = Some x -> nth_error l (S i) = Some y -> (Z.abs (y - x) <= d)%Z.

(* The calls use spans only. *)
Definition spans (os : list op) : Prop := forall o, In o os -> o <> One.

(* The call does not reverse a ramp by force. *)
Definition unforced (o : op) : Prop := match o with Target _ f => f = false | _ => True end.

(* At or on the way to the target. *)
Definition heading (s : ts) (on : bool) : Prop :=
  match ph s with Up => on = true | On => on = true | Down => on = false | Off => on = false end.
