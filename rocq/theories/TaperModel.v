(* Model of the envelope of bursts:
   /repo/algorithm/include/gnuradio-4.0/algorithm/BurstTaper.hpp ("BT").

   Simplified: gains are integers (multiples of some step), and what is
   modelled of the samples is the gain each is multiplied with; how the
   coefficients are computed is not modelled. *)

From Coq Require Import ZArith Bool Lia List.
Import ListNotations.

Local Open Scope nat_scope.

(* Phase.  BT:39 *)
Inductive phase : Type := Off | Up | On | Down.
(* _riseCoefficients, _fallCoefficients and the gain 1.  BT:50-51 *)
Record cfg : Type := mkC { rise : list Z; fall : list Z; unity : Z }.
(* _phase, _rampPosition, _targetOn.  BT:47-49 *)
Record ts : Type := mkT { ph : phase; pos : nat; tgt : bool }.
(* rampLength.  BT:142 *)
Definition len (c : cfg) : nat := length (rise c).
(* reset.  BT:87-91 *)
Definition reset : ts := mkT Off 0 false.

(* startRamp.  BT:95-102 *)
Definition startRamp (c : cfg) (p : phase) (s : ts) (on : bool) : ts :=
  if len c =? 0 then mkT (match p with Up => On | _ => Off end) (pos s) on else mkT p 0 on.

(* setTarget.  BT:93-134 *)
Definition setTarget (c : cfg) (on force : bool) (s : ts) : ts * bool :=
  match ph s with
  | Off => if on then (startRamp c Up s on, true) else (mkT Off (pos s) on, false)
  | On => if on then (mkT On (pos s) on, false) else (startRamp c Down s on, true)
  | Up => if negb on && force then (mkT Down (len c - min (pos s) (len c)) on, true) else (mkT Up (pos s) on, negb on)
  | Down => if on && force then (mkT Up (len c - min (pos s) (len c)) on, true) else (mkT Down (pos s) on, on)
  end.

(* transitionAfterRamp.  BT:237-244 *)
Definition transition (s : ts) : ts :=
  match ph s with
  | Up => mkT (if tgt s then On else Down) 0 (tgt s)
  | _ => mkT (if tgt s then Up else Off) 0 (tgt s)
  end.

(* The coefficients of a ramp.  BT:160, 218-219 *)
Definition coef (c : cfg) (p : phase) : list Z := match p with Up => rise c | _ => fall c end.

(* processOne.  BT:148-168 *)
Definition processOne (c : cfg) (s : ts) : ts * Z :=
  match ph s with
  | Off => (s, 0%Z)
  | On => (s, unity c)
  | p =>
    if (len c =? 0) || (len c <=? pos s) then
      let s1 := transition s in (s1, match ph s1 with On => unity c | _ => 0%Z end)
    else
      let s1 := mkT p (S (pos s)) (tgt s) in
      (if len c <=? S (pos s) then transition s1 else s1, nth (pos s) (coef c p) 0%Z)
  end.

(* applyRamp; the zeros it writes behind the ramp are written again by the
   next turn of the loop.  BT:224-235 *)
Definition applyRamp (c : cfg) (s : ts) (n : nat) : ts * list Z :=
  let k := min (len c - pos s) n in
  let s1 := mkT (ph s) (pos s + k) (tgt s) in
  (if len c <=? pos s1 then transition s1 else s1, firstn k (skipn (pos s) (coef c (ph s)))).

(* The loop of applyBulk; [fuel] bounds its turns.  BT:208-222 *)
Fixpoint loop (fuel : nat) (c : cfg) (s : ts) (n : nat) : ts * list Z :=
  match n, fuel with
  | 0, _ => (s, [])
  | _, 0 => (s, [])
  | _, S fu =>
    match ph s with
    | Off => (s, repeat 0%Z n)
    | On => (s, repeat (unity c) n)
    | _ => let '(s1, g) := applyRamp c s n in
           let '(s2, g2) := loop fu c s1 (n - length g) in (s2, g ++ g2)
    end
  end.
(* applyTo, applyInPlace: the gains of n samples.  BT:170-172, 208-222 *)
Definition apply (c : cfg) (s : ts) (n : nat) : ts * list Z := loop (2 * n + 2) c s n.

(* Calls of users, and the gains each hands out.  BT:93, 148, 170-172 *)
Inductive op : Type := Target (on force : bool) | Apply (n : nat) | One.
Definition step (c : cfg) (s : ts) (o : op) : ts * list Z :=
  match o with
  | Target on force => (fst (setTarget c on force s), [])
  | Apply n => apply c s n
  | One => let '(s1, g) := processOne c s in (s1, [g])
  end.
Fixpoint exec (c : cfg) (s : ts) (os : list op) : ts * list Z :=
  match os with
  | [] => (s, [])
  | o :: r => let '(s1, g) := step c s o in let '(s2, h) := exec c s1 r in (s2, g ++ h)
  end.
