(* What a user expects of the block that passes ranges of a stream on as a
   stream: a machine that looks at one sample after the other.  Nothing here
   refers to calls, spans or the room of the output. *)

From Coq Require Import Arith List Bool.
From Verif Require Import WinModel WinSpec.
Import ListNotations.

Local Open Scope nat_scope.

Section StrSpec.

Context {A T : Type}.

(* Nothing is passed on; a range is passed on; the last [k] samples of it. *)
Inductive mode : Type := Off | Body | Post (k : nat).

(* All samples so far; the tags that were not passed on, with the index of
   their sample; a two-sided filter waits for its stop; the mode; the samples
   in front of the range are still due; the samples and tags passed on. *)
Record ref : Type := mkRef {
  past : list A; pend : list (nat * T); opened : bool; md : mode; due : bool;
  rout : list A; rtags : list (nat * otag T) }.
Definition ref0 : ref := mkRef [] [] false Off false [] [].

(* A start, or a stop, if the filter waits for one.  A start is heard but has
   no effect as long as the end of the former range is passed on. *)
Definition ev (c : wcfg) (single : bool) (S E : T -> bool) (ts : list T) (r : ref) : ref :=
  if single then
    match existsb S ts, md r with
    | true, Off => mkRef (past r) (pend r) (opened r) (Post (nPost c)) true (rout r) (rtags r)
    | _, _ => r
    end
  else if opened r then
    if existsb E ts
    then mkRef (past r) (pend r) false (match md r with Body => Post (nPost c) | m => m end) (due r) (rout r) (rtags r)
    else r
  else if existsb S ts then
    match md r with
    | Off => mkRef (past r) (pend r) true Body true (rout r) (rtags r)
    | m => mkRef (past r) (pend r) true m (due r) (rout r) (rtags r)
    end
  else r.

(* Tags go out as one merged tag, if there are any. *)
Definition mergedAt (p : nat) (l : list (nat * T)) : list (nat * otag T) :=
  match l with [] => [] | _ => [(p, Merged (map snd l))] end.

(* The tags that are too old for the samples in front, and the others. *)
Definition old (c : wcfg) (n : nat) (e : nat * T) : bool := nPre c <? n - fst e.
Definition older (c : wcfg) (r : ref) : list (nat * T) := filter (old c (length (past r))) (pend r).
Definition recent (c : wcfg) (r : ref) : list (nat * T) := filter (fun e => negb (old c (length (past r)) e)) (pend r).

(* The samples in front of a range, as far as there are any: the last n_pre of
   the past; pending tags on their samples, those of earlier samples merged on
   the first. *)
Definition flush (c : wcfg) (r : ref) : ref :=
  if due r then
    let n := length (past r) in
    let np := min (nPre c) n in
    let o := length (rout r) in
    if np =? 0 then mkRef (past r) (pend r) (opened r) (md r) false (rout r) (rtags r)
    else mkRef (past r) [] (opened r) (md r) false
               (rout r ++ skipn (n - np) (past r))
               (rtags r ++ mergedAt o (older c r) ++ map (fun e => (o + (fst e - (n - np)), Own (snd e))) (recent c r))
  else r.

(* The sample itself. *)
Definition take (z : A * list T) (r : ref) : ref :=
  let skip := mkRef (past r ++ [fst z]) (pend r ++ map (pair (length (past r))) (snd z)) (opened r) Off (due r) (rout r) (rtags r) in
  let pass m :=
    let o := length (rout r) in
    mkRef (past r ++ [fst z]) [] (opened r) m (due r) (rout r ++ [fst z])
          (rtags r ++ mergedAt o (pend r) ++ map (fun t => (o, Own t)) (snd z)) in
  match md r with
  | Off | Post 0 => skip
  | Body => pass Body
  | Post 1 => pass Off
  | Post (S k) => pass (Post k)
  end.

Definition rstep (c : wcfg) (single : bool) (S E : T -> bool) (r : ref) (z : A * list T) : ref :=
  take z (flush c (ev c single S E (snd z) r)).
Definition rrun (c : wcfg) (single : bool) (S E : T -> bool) (zs : stream A T) : ref := fold_left (rstep c single S E) zs ref0.

(* The next sample does not both start and stop. *)
Definition oneSided (S E : T -> bool) (z : A * list T) : Prop := existsb S (snd z) = true -> existsb E (snd z) = false.

(* A stream of ranges far enough apart.  A piece: samples without a start; the
   range itself, from the start on, without a stop; the samples from the stop
   on that belong to the range (at least the one with the stop), without a
   start. *)
Record piece : Type := mkPiece { gap : stream A T; body : stream A T; rear : stream A T }.
Definition quietOf (P : T -> bool) (l : stream A T) : Prop := Forall (fun z => existsb P (snd z) = false) l.
Definition headOf (P : T -> bool) (l : stream A T) : Prop := match l with z :: _ => existsb P (snd z) = true | [] => False end.
Definition pieceOk (c : wcfg) (S E : T -> bool) (p : piece) : Prop :=
  quietOf S (gap p) /\ headOf S (body p) /\ quietOf E (body p) /\ headOf E (rear p) /\ quietOf S (rear p) /\ length (rear p) = max 1 (nPost c).
(* With one name there is no body, and triggers among the samples behind a
   trigger do not matter. *)
Definition pieceOk1 (c : wcfg) (S : T -> bool) (p : piece) : Prop :=
  quietOf S (gap p) /\ body p = [] /\ headOf S (rear p) /\ length (rear p) = max 1 (nPost c).
Definition whole (p : piece) : stream A T := gap p ++ body p ++ rear p.

(* What is to be passed on: for each piece n_pre samples of everything before
   the start, the range, n_post samples. *)
Fixpoint passed (c : wcfg) (before : list A) (ps : list piece) : list A :=
  match ps with
  | [] => []
  | p :: r =>
      let b := before ++ map fst (gap p) in
      skipn (length b - nPre c) b ++ map fst (body p) ++ firstn (nPost c) (map fst (rear p)) ++
      passed c (before ++ map fst (whole p)) r
  end.

End StrSpec.
Arguments ref : clear implicits.
Arguments piece : clear implicits.


(* The environment: from what is left of the stream a call is offered at most
   [n] samples up to the next tag.  Block.hpp:1964-1971 *)
Section Play.
Context {A T F : Type}.
Context (mt : F -> option T -> F * verdict) (f0 : F).

Fixpoint untagged (l : stream A T) : list A :=
  match l with (x, []) :: r => x :: untagged r | _ => [] end.
Definition offer (n room : nat) (zs : stream A T) : call A T :=
  match zs with
  | [] => mkCall [] [] room
  | (x, ts) :: r => match n with 0 => mkCall [] [] room | S m => mkCall ts (firstn (S m) (x :: untagged r)) room end
  end.

(* Calls one after the other, each with what is left; [ps] are the sizes and
   the room.  The result is the trace and what is left of the stream. *)
Fixpoint play (c : wcfg) (ps : list (nat * nat)) (x : strace A T F) (zs : stream A T) : strace A T F * stream A T :=
  match ps with
  | [] => (x, zs)
  | (n, room) :: r =>
      let x' := sstep mt c x (offer n room zs) in
      play c r x' (skipn (length (stIn x') - length (stIn x)) zs)
  end.
End Play.
