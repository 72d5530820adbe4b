(* Model of the source that counts samples and puts tags into them:
   /repo/blocks/basic/include/gnuradio-4.0/basic/ClockSource.hpp ("CS").

   Simplified: a tag is its place; the samples the times of tags stand for are
   given as the list [timed], the numbers CS:126-127 compute; the timer's count
   of each call is given; repeat_period is 0, its default. *)

From Coq Require Import ZArith Bool Lia List.
Import ListNotations.

Local Open Scope Z_scope.

(* gr::Size_t.  CS:38, 56 *)
Definition wrap (z : Z) : Z := z mod 2 ^ 32.
Definition maxSize : Z := 2 ^ 32 - 1.

(* n_samples_max, tags, tag_times as samples, tag_times.back().  CS:38-41, 55 *)
Record conf : Type := mkK { nMax : Z; marks : list Z; timed : list Z; lastTime : Z }.
(* n_samples_produced, _nextTagIndex, _nextTimeTag.  CS:56-61 *)
Record clk : Type := mkS { made : Z; nextMark : nat; nextTimed : nat }.
(* start.  CS:66-69 *)
Definition start : clk := mkS 0 0 0.

(* A tag in the output: of which list, which of it, at which sample.
   CS:140, 167; the status of a call, CS:100, 109, 176 *)
Inductive out : Type := Mark (i : nat) (at_ : Z) | Timed (i : nat) (at_ : Z).
Inductive status : Type := Done | Waiting | Ok.

(* The distance to the next tag of a time, 0 if it is late.  CS:114-130 *)
Definition toTimed (c : conf) (s : clk) : Z :=
  match nth_error (timed c) (nextTimed s) with
  | None => maxSize
  | Some a => if made s <=? a then a - made s else 0
  end.
(* The distance to the next listed tag, in 32 bits.  CS:132 *)
Definition toMark (c : conf) (s : clk) : Z :=
  match nth_error (marks c) (nextMark s) with
  | None => maxSize
  | Some i => wrap (i - made s)
  end.

(* The restart of the list of times: repeat_period >= tag_times.back().
   CS:120-124 *)
Definition renew (c : conf) (s : clk) : clk :=
  match timed c with
  | [] => s
  | _ => if (length (timed c) <=? nextTimed s)%nat && (lastTime c <=? 0) then mkS (made s) (nextMark s) 0 else s
  end.

(* processBulk, for a count k of the timer.  CS:97-177 *)
Definition call (c : conf) (s : clk) (k : Z) : clk * list out * Z * status :=
  if (0 <? nMax c) && (nMax c <=? made s) then (s, [], 0, Done) else
  let remaining := if 0 <? nMax c then nMax c - made s else maxSize in
  let n := Z.min remaining (wrap k) in
  if n =? 0 then (s, [], 0, Waiting) else
  let s := renew c s in
  let dt := toTimed c s in
  let dm := toMark c s in
  if dm <? dt then
    match nth_error (marks c) (nextMark s) with
    | Some i =>
      if dm <=? n then (mkS (wrap (made s + Z.max dm 1)) (S (nextMark s)) (nextTimed s),
                        [Mark (nextMark s) (made s + (i - made s) mod 2 ^ 64)], Z.max dm 1, Ok)
      else (mkS (wrap (made s + n)) (nextMark s) (nextTimed s), [], n, Ok)
    | None => (mkS (wrap (made s + n)) (nextMark s) (nextTimed s), [], n, Ok)
    end
  else
    match nth_error (timed c) (nextTimed s) with
    | Some _ =>
      if dt <=? n then (mkS (wrap (made s + Z.max dt 1)) (nextMark s) (S (nextTimed s)),
                        [Timed (nextTimed s) (made s + dt)], Z.max dt 1, Ok)
      else (mkS (wrap (made s + n)) (nextMark s) (nextTimed s), [], n, Ok)
    | None => (mkS (wrap (made s + n)) (nextMark s) (nextTimed s), [], n, Ok)
    end.

(* Calls of CS:97 one after the other: the state, the tags, the samples published. *)
Fixpoint calls (c : conf) (s : clk) (ks : list Z) : clk * list out * Z :=
  match ks with
  | [] => (s, [], 0)
  | k :: r => let '(s1, o, n, _) := call c s k in let '(s2, o2, n2) := calls c s1 r in (s2, o ++ o2, n + n2)
  end.
