(* Model of the Schmitt trigger and of the block around it:
   /repo/algorithm/include/gnuradio-4.0/algorithm/SchmittTrigger.hpp ("ST"),
   /repo/blocks/basic/include/gnuradio-4.0/basic/Trigger.hpp ("TR").

   Simplified: samples are integers without bounds and divisions exact;
   uncertainties, the sub-sample offset and the counters' limits are not
   modelled; the smoothing fit is any function. *)

From Coq Require Import ZArith List Bool Lia.
Import ListNotations.

Local Open Scope Z_scope.

(* EdgeDetection.  ST:24 *)
Inductive edge : Type := ENone | ERising | EFalling.

(* _upperThreshold, _lowerThreshold of threshold and offset.  ST:67, 78-88 *)
Record tcfg : Type := mkC { thr : Z; offs : Z }.
Definition upper (c : tcfg) : Z := offs c + thr c.
Definition lower (c : tcfg) : Z := offs c - thr c.

(* _lastState, lastEdge, lastEdgeIdx, the newest sample of the history and
   accumulatedSamples.  ST:51-60 *)
Record tst : Type := mkT { high : bool; lastE : edge; idx : Z; hist : list Z; acc : nat }.
(* The history holds zeros in the beginning.  ST:73-75, 90-101 *)
Definition initT : tst := mkT false ENone 1 (repeat 0 16) 0.

(* lastEdgeIdx without a new edge.  ST:120, 162 *)
Definition older (i : Z) : Z := if 0 <? i then 1 else i - 1.

(* NO_INTERPOLATION.  ST:106-122 *)
Definition step0 (c : tcfg) (s : tst) (x : Z) : tst * edge :=
  if negb (high s) && (upper c <=? x) then (mkT true ERising 0 (hist s) (acc s), ERising)
  else if high s && (x <=? lower c) then (mkT false EFalling 0 (hist s) (acc s), EFalling)
  else (mkT (high s) (lastE s) (older (idx s)) (hist s) (acc s), ENone).

(* push_front of a full history. *)
Definition push (x : Z) (h : list Z) : list Z := x :: removelast h.

(* std::round of p / q: half away from zero. *)
Definition roundDiv (p q : Z) : Z := Z.sgn p * Z.sgn q * ((2 * Z.abs p + Z.abs q) / (2 * Z.abs q)).
(* computeEdgePosition: -1 + (offset - y1) / (y2 - y1), rounded.  ST:133-142 *)
Definition basicPos (c : tcfg) (y1 y2 : Z) : Z := if y1 =? y2 then 0 else roundDiv (offs c - y2) (y2 - y1).

(* BASIC_LINEAR_INTERPOLATION.  ST:124-164 *)
Definition step1 (c : tcfg) (s : tst) (x : Z) : tst * edge :=
  let y := hd 0 (hist s) in
  let h := push x (hist s) in
  if negb (high s) && (upper c <=? x) then (mkT true ERising (basicPos c y x) h (acc s), ERising)
  else if high s && (x <=? lower c) then (mkT false EFalling (basicPos c y x) h (acc s), EFalling)
  else (mkT (high s) (lastE s) (older (idx s)) h (acc s), ENone).

(* LINEAR_INTERPOLATION and POLYNOMIAL_INTERPOLATION; [fit] gives the rounded
   position from the history and the number of samples in the zone, None for
   no crossing.  ST:166-222, 224-289 *)
Definition step2 (fit : list Z -> nat -> option Z) (c : tcfg) (s : tst) (x : Z) : tst * edge :=
  let y := hd 0 (hist s) in
  let h := push x (hist s) in
  let was := Nat.ltb 0 (acc s) in
  let a1 := if negb was && negb (high s) && (y <=? lower c) && (lower c <? x) then 1%nat else acc s in
  let a2 := if negb was && high s && (upper c <=? y) && (x <? upper c) then 1%nat else a1 in
  let a := if was then S (acc s) else a2 in
  if Nat.ltb 0 a then
    if (negb (high s) && (upper c <=? x)) || (high s && (x <=? lower c)) then
      let e := if negb (high s) && (upper c <=? x) then ERising else EFalling in
      match fit h a with
      | Some p => (mkT (negb (high s)) e p h 0, e)
      | None => (mkT (high s) (lastE s) (idx s) h a, ENone)
      end
    else if (negb (high s) && (x <? lower c)) || (high s && (upper c <? x)) then (mkT (high s) (lastE s) (idx s) h 0, ENone)
    else (mkT (high s) (lastE s) (idx s) h a, ENone)
  else (mkT (high s) (lastE s) (idx s) h a, ENone).

(* The denominator of findCrossingIndexLinearRegression, times 12:
   sumX2 - n meanX^2; it gives a crossing iff this is not zero.  ST:294-320 *)
Definition denominator12 (n : Z) : Z := 2 * (n * (n - 1) * (2 * n - 1)) - 3 * (n * (n - 1) * (n - 1)).

(* One call for each sample. *)
Fixpoint edges (f : tst -> Z -> tst * edge) (s : tst) (xs : list Z) : list edge :=
  match xs with [] => [] | x :: r => let '(s', e) := f s x in e :: edges f s' r end.
Fixpoint after (f : tst -> Z -> tst * edge) (s : tst) (xs : list Z) : tst :=
  match xs with [] => s | x :: r => after f (fst (f s x)) r end.

(* ---------------- the block ---------------- *)

(* _trigger and _now.  TR:64-66 *)
Record bst : Type := mkB { trg : tst; now : Z }.
(* A published tag: position in the stream, which edge, time. *)
Definition tag : Type := (nat * edge * Z)%type.

(* Whether the name for the edge is not empty.  TR:147-152 *)
Definition named (names : bool * bool) (e : edge) : bool :=
  match e with ENone => false | ERising => fst names | EFalling => snd names end.

(* The loop: [i] samples are done, [n] is nProcess; the state, the number of
   samples published and the tag.  The tag's time is _now less the relative
   offset (undefined in the code if that is negative).  TR:118-155 *)
Fixpoint scan (f : tst -> Z -> tst * edge) (names : bool * bool) (period : Z) (n i : nat) (s : bst) (xs : list Z) : bst * nat * option (nat * edge * Z) :=
  match xs with
  | [] => (s, n, None)
  | x :: r =>
      let t := now s + period in
      let '(tr, e) := f (trg s) x in
      let s' := mkB tr t in
      let pos := Z.of_nat i + idx tr in
      if named names e && (0 <=? pos) && (pos <? Z.of_nat n)
      then (s', S (Z.to_nat pos), Some (Z.to_nat pos, e, t - idx tr * period))
      else scan f names period n (S i) s' r
  end.

(* processBulk for a span and the room of the output; None if it returns
   INSUFFICIENT_INPUT_ITEMS.  N_HISTORY is 32.  TR:91-102, 157-163 *)
Definition nProcess (span : list Z) (room : nat) (eos : bool) : nat :=
  min (if eos then length span else length span - 32)%nat room.
Definition processBulk (f : tst -> Z -> tst * edge) (names : bool * bool) (period : Z) (s : bst) (span : list Z) (room : nat) (eos : bool) : option (bst * nat * option (nat * edge * Z)) :=
  let n := nProcess span room eos in
  match n with
  | O => None
  | _ => Some (scan f names period n 0 s (firstn n span))
  end.

(* A sequence of calls on the stream [xs]: each is given some of the samples
   not yet consumed, some room, and whether an end of stream tag is known.
   The samples consumed and the tags published, by position in the stream. *)
Fixpoint calls (f : tst -> Z -> tst * edge) (names : bool * bool) (period : Z) (s : bst) (done : nat) (xs : list Z) (cs : list (nat * nat * bool)) : bst * nat * list tag :=
  match cs with
  | [] => (s, done, [])
  | (given, room, eos) :: r =>
      match processBulk f names period s (firstn given (skipn done xs)) room eos with
      | None => calls f names period s done xs r
      | Some (s', k, tg) =>
          let '(s'', d, ts) := calls f names period s' (done + k) xs r in
          (s'', d, match tg with Some (p, e, t) => (done + p, e, t)%nat :: ts | None => ts end)
      end
  end.
