(* Model of the count of samples that are due by the clock:
   /repo/core/include/gnuradio-4.0/BlockingSync.hpp ("BS").

   Simplified: times are whole nanoseconds, the rate a whole number of samples
   per second, and the products and quotients the code forms in double are
   exact before they are cut; a clock that goes back counts as no time. *)

From Coq Require Import ZArith Bool Lia List.
Import ListNotations.

Local Open Scope Z_scope.

(* Nanoseconds of a second; ClockSourceType::duration.  BS:118, 175 *)
Definition giga : Z := 10 ^ 9.

(* computeWallClockSamples: the new _blockingSync_lastUpdateTime and the
   count.  BS:162-179 *)
Definition due (rate chunk : Z) (last now room : Z) (drop : bool) : Z * Z :=
  let needed := Z.max 0 (now - last) * rate / giga in
  let n := Z.min needed (Z.min chunk room) in
  (if drop then now else if 0 <? n then last + n * giga / rate else last, n).

(* A call: the time, the room in the output, dropIfBehind.  BS:224-226 *)
Record ask : Type := mkAsk { at_ : Z; room : Z; drop : bool }.

(* Calls of BS:224-226 one after the other; the sum of the counts. *)
Fixpoint asks (rate chunk last : Z) (l : list ask) : Z * Z :=
  match l with
  | [] => (last, 0)
  | a :: r => let '(last1, n) := due rate chunk last (at_ a) (room a) (drop a) in
              let '(last2, m) := asks rate chunk last1 r in (last2, n + m)
  end.
