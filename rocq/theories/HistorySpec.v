(** What a history buffer promises: a list bounded by the capacity.  No ring, no mirror. *)
From Coq Require Import List ZArith Bool.
From Verif Require Import Base HistoryModel.
Import ListNotations.
Local Open Scope Z_scope.

Section Spec.
Context {A : Type}.
Record ahist := { elems : list A; acap : Z; adyn : bool }.

(** The last [n] elements. *)
Definition lastn (n : nat) (l : list A) : list A := skipn (length l - n) l.
Definition pushF (a : ahist) (v : A) : list A := firstn (Z.to_nat (acap a)) (v :: elems a).
Definition pushB (a : ahist) (v : A) : list A := lastn (Z.to_nat (acap a)) (elems a ++ [v]).
Definition withE (a : ahist) (l : list A) : ahist := {| elems := l; acap := acap a; adyn := adyn a |}.

Definition astep (a : ahist) (o : op A) : option (ahist * out A) :=
  let n := Z.of_nat (length (elems a)) in
  match o with
  | PushFront v => Some (withE a (pushF a v), ODone)
  | PushBack v => Some (withE a (pushB a v), ODone)
  | PushFrontR l => Some (fold_left (fun a v => withE a (pushF a v)) l a, ODone)
  | PushBackR l => Some (fold_left (fun a v => withE a (pushB a v)) l a, ODone)
  | PopFront => match elems a with [] => Some (a, OThrow) | _ :: r => Some (withE a r, ODone) end
  | PopBack => match elems a with [] => Some (a, OThrow) | _ => Some (withE a (removelast (elems a)), ODone) end
  | Resize c => if negb (adyn a) || (c <? 0) then None else if c =? 0 then Some (a, OThrow)
                else Some ({| elems := firstn (Z.to_nat c) (elems a); acap := c; adyn := adyn a |}, ODone)
  | Reset v => Some (withE a [], ODone)
  | Get i => if i <? 0 then None else match nth_error (elems a) (Z.to_nat i) with Some v => Some (a, OVal v) | None => None end
  | At i => if i <? 0 then None else match nth_error (elems a) (Z.to_nat i) with Some v => Some (a, OVal v) | None => Some (a, OThrow) end
  | Span i k => if (0 <=? i) && (i <=? n) && (0 <=? k) then Some (a, OList (firstn (Z.to_nat k) (skipn (Z.to_nat i) (elems a)))) else None
  | Iterate => Some (a, OList (elems a))
  | Size => Some (a, OLen n (acap a))
  | SetAt _ _ => None
  end.

(** With writes through references: the element is replaced. *)
Definition astepW (a : ahist) (o : op A) : option (ahist * out A) :=
  match o with
  | SetAt i v => if (0 <=? i) && (i <? Z.of_nat (length (elems a))) then Some (withE a (upd (elems a) (Z.to_nat i) v), ODone) else None
  | _ => astep a o
  end.

Fixpoint arun (a : ahist) (ops : list (op A)) : option (ahist * list (out A)) :=
  match ops with
  | [] => Some (a, [])
  | o :: r => match astep a o with
              | None => None
              | Some (a1, x) => match arun a1 r with None => None | Some (a2, xs) => Some (a2, x :: xs) end
              end
  end.
Fixpoint arunW (a : ahist) (ops : list (op A)) : option (ahist * list (out A)) :=
  match ops with
  | [] => Some (a, [])
  | o :: r => match astepW a o with
              | None => None
              | Some (a1, x) => match arunW a1 r with None => None | Some (a2, xs) => Some (a2, x :: xs) end
              end
  end.
(** Calls that write through a reference; calls that read a contiguous range. *)
Definition is_set (o : op A) : bool := match o with SetAt _ _ => true | _ => false end.
Definition contiguous (o : op A) : bool := match o with Resize _ | Span _ _ | Iterate => true | _ => false end.
(** Capacities fit a size_t. *)
Definition fits (o : op A) : Prop := match o with Resize c => c < 2 ^ 64 | _ => True end.
Definition anew (c : Z) (d : bool) : ahist := {| elems := []; acap := c; adyn := d |}.
End Spec.
Arguments ahist : clear implicits.
