(* What a user expects of the block that cuts ranges out of a stream: which
   samples start and stop a range, and what the data set of a range holds.
   Nothing here refers to calls, spans or the state of the block. *)

From Coq Require Import Arith ZArith List Bool.
From Verif Require Import WinModel.
Import ListNotations.

Local Open Scope nat_scope.

Section Spec.

Context {A T F : Type}.

(* A stream: samples with the tags that sit on them. *)
Definition stream := list (A * list T).

(* The matcher of a filter: [S] tells the tags that start a range, [E] those
   that stop one.  Idle states wait for a start, open ones for a stop; with a
   one-sided filter every state waits for a start. *)
Record matcher (mt : F -> option T -> F * verdict) (f0 : F) (single : bool)
       (S E : T -> bool) (idle open : F -> Prop) : Prop := {
  m_f0 : idle f0;
  m_idle : forall f t, idle f -> S t = true ->
    snd (mt f (Some t)) = mkV true false single /\ (if single then idle (fst (mt f (Some t))) else open (fst (mt f (Some t))));
  m_idle_no : forall f t, idle f -> S t = false -> snd (mt f (Some t)) = silent /\ idle (fst (mt f (Some t)));
  m_open : forall f t, open f -> E t = true -> snd (mt f (Some t)) = mkV false true single /\ idle (fst (mt f (Some t)));
  m_open_no : forall f t, open f -> E t = false -> snd (mt f (Some t)) = silent /\ open (fst (mt f (Some t)));
  m_idle_none : forall f, idle f -> snd (mt f None) = silent /\ idle (fst (mt f None));
  m_open_none : forall f, open f -> snd (mt f None) = silent /\ open (fst (mt f None)) }.

(* A range: the index of the sample that starts it and of the one that stops it. *)
Definition range := (nat * option nat)%type.
Definition isOpen (r : range) : bool := match snd r with None => true | Some _ => false end.

(* The stop belongs to the earliest range that is still open. *)
Fixpoint close (i : nat) (rs : list range) : list range :=
  match rs with
  | [] => []
  | (s, None) :: r => (s, Some i) :: r
  | x :: r => x :: close i r
  end.

(* One sample: the first of its tags that starts a range, or stops one if one
   is open, counts. *)
Definition event (single : bool) (S E : T -> bool) (i : nat) (ts : list T) (rs : list range) : list range :=
  match find (fun t => S t || (existsb isOpen rs && E t)) ts with
  | Some t => if S t then rs ++ [(i, if single then Some i else None)] else close i rs
  | None => rs
  end.

(* The ranges of a stream, in the order of their starts. *)
Fixpoint rangesFrom (single : bool) (S E : T -> bool) (i : nat) (rs : list range) (xs : stream) : list range :=
  match xs with
  | [] => rs
  | (_, ts) :: r => rangesFrom single S E (1 + i) (event single S E i ts rs) r
  end.
Definition ranges (single : bool) (S E : T -> bool) (xs : stream) : list range := rangesFrom single S E 0 [] xs.

(* The samples of a range: n_pre in front of the start, those up to the stop
   (excluded) and n_post more; all of them as long as it is open; at most
   n_max. *)
Definition cap {X} (c : wcfg) (l : list X) : list X := if nMax c =? 0 then l else firstn (nMax c) l.
Definition content (c : wcfg) (xs : stream) (r : range) : stream :=
  let from := fst r - nPre c in
  match snd r with
  | None => cap c (skipn from xs)
  | Some e => cap c (firstn (e + nPost c - from) (skipn from xs))
  end.

(* The tags of a piece of stream with their index. *)
Fixpoint eventsOf (i : nat) (l : stream) : list (nat * T) :=
  match l with [] => [] | (_, ts) :: r => map (pair i) ts ++ eventsOf (1 + i) r end.

(* The data set of a piece of stream of which the first [p] samples are in
   front of the trigger: time zero is the trigger. *)
Definition dsOf (p : nat) (l : stream) : dset A T :=
  mkDs (map fst l) (map (fun i => (Z.of_nat i - Z.of_nat p)%Z) (seq 0 (length l))) (eventsOf 0 l).
Definition dataSet (c : wcfg) (xs : stream) (r : range) : dset A T :=
  dsOf (min (nPre c) (fst r)) (content c xs r).

(* A range has ended after [n] samples: its last sample is among them. *)
Definition ended (c : wcfg) (n : nat) (r : range) : Prop :=
  match snd r with
  | None => False
  | Some e => e <= n /\ (e + nPost c <= n \/ (nMax c <> 0 /\ (fst r - nPre c) + nMax c <= n))
  end.

Definition allTags (xs : stream) : list T := flat_map snd xs.

End Spec.

Arguments stream : clear implicits.
