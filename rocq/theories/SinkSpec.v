(* What a user of the sinks relies on, stated without the listeners' state. *)

From Coq Require Import Arith ZArith List Bool Lia Sorted.
From Verif Require Import SinkModel.
Import ListNotations.

Local Open Scope nat_scope.

Section Spec.
Context {A T M : Type}.

(* ---------- a poller of the stream ---------- *)

(* The calls made so far account for the samples [S] and tags [P] that were
   passed on and for the number of samples that were not.  Of each call a
   prefix is passed on, with tags that sit on the samples they belong to: a
   prefix of a description of the signal (at most one, on the first sample)
   and the call's tags on the samples passed on.  [all]: nothing is left out. *)
Inductive account (all : bool) : list (list A * list (nat * T)) -> list A -> list (nat * ptag T M) -> nat -> Prop :=
| acc_none : account all [] [] [] 0
| acc_call : forall cs S P d data tags k metas nt,
    account all cs S P d ->
    k <= length data ->
    length metas <= 1 ->
    (k = 0 -> nt = 0) ->
    let whole := map (fun m => (length S, Meta m)) metas
                 ++ map (fun e => (length S + fst e, Plain (snd e))) (filter (fun e => fst e <? k) tags) in
    (all = true -> k = length data /\ (k <> 0 -> length whole <= nt)) ->
    account all (cs ++ [(data, tags)]) (S ++ firstn k data) (P ++ firstn nt whole) (d + (length data - k)).

(* What the handler was given: the samples, and the tags at their position in
   everything it was given. *)
Definition samplesOf (g : list (list A * list (nat * ptag T M))) : list A := concat (map fst g).
Fixpoint tagsOf (off : nat) (g : list (list A * list (nat * ptag T M))) : list (nat * ptag T M) :=
  match g with
  | [] => []
  | (s, t) :: r => map (fun e => (off + fst e, snd e)) t ++ tagsOf (off + length s) r
  end.

(* Samples accepted but not handed over yet, and samples that will never be. *)
Definition waiting (st : pst A T M) : list A := sq st ++ match mid st with Some m => kept m | None => [] end.
Definition lost (st : pst A T M) : nat := dropS st + match mid st with Some m => dS m | None => 0 end.

(* Tags come in the order of their samples. *)
Definition inOrder (l : list nat) : Prop := StronglySorted le l.

(* ---------- data sets ---------- *)

Context {F : Type} (mt : F -> T -> F * verdict).

(* The stream that the calls present: every sample with its tags. *)
Definition spanOf (k : call A T) : list (A * list T) :=
  match cSmp k with [] => [] | x :: r => (x, cTags k) :: map (fun y => (y, [])) r end.
Definition streamOf (ks : list (call A T)) : list (A * list T) := concat (map spanOf ks).
Definition proper (ks : list (call A T)) : Prop := Forall (fun k => cSmp k <> []) ks.

(* Every tag that the matcher does not ignore, with its position; [skip]: tags
   that are not shown to the matcher. *)
Fixpoint judge (skip : T -> bool) (f : F) (i : nat) (ts : list T) : F * list (nat * T * verdict) :=
  match ts with
  | [] => (f, [])
  | t :: r =>
      if skip t then judge skip f i r
      else let '(f1, v) := mt f t in
           let '(f2, l) := judge skip f1 i r in
           (f2, match v with Ignore => l | _ => (i, t, v) :: l end)
  end.
Fixpoint judged (skip : T -> bool) (f : F) (i : nat) (s : list (A * list T)) : F * list (nat * T * verdict) :=
  match s with
  | [] => (f, [])
  | (_, ts) :: r =>
      let '(f1, l) := judge skip f i ts in
      let '(f2, l2) := judged skip f1 (S i) r in (f2, l ++ l2)
  end.
Definition isStart (e : nat * T * verdict) : bool := match snd e with Matching => true | _ => false end.
Definition starts (skip : T -> bool) (f : F) (s : list (A * list T)) : list (nat * T) :=
  map fst (filter isStart (snd (judged skip f 0 s))).

Definition lastn {X} (n : nat) (l : list X) : list X := skipn (length l - n) l.

(* The window around a trigger at [p]: what there is of the [pre] samples in
   front of it, and [post] samples from it on; [h] is the past (newest first). *)
Definition window (pre post : nat) (h : list A) (s : list A) (e : nat * T) : dset A T :=
  let before := rev h ++ firstn (fst e) s in
  let n := min pre (length before) in
  let v := lastn n before ++ firstn post (skipn (fst e) s) in
  mkDs v (seq 0 (length v)) (length v) [(Z.of_nat n, snd e)].

(* The sample [delay] samples after a trigger at [p]. *)
Definition snapshot (delay : nat) (s : list A) (e : nat * T) : option (dset A T) :=
  match nth_error s (fst e + delay) with
  | Some x => Some (mkDs [x] [0] 1 [((- Z.of_nat delay)%Z, snd e)])
  | None => None
  end.
Definition somes {X} (l : list (option X)) : list X :=
  concat (map (fun o => match o with Some x => [x] | None => [] end) l).

(* The ranges between tags: from a start to the next start or stop, cut at
   [mx] samples (0: unlimited); those that are complete and the one still
   open.  The tag that ends a range is noted in it unless the range was full. *)
Definition part (mx p e : nat) (s : list A) : list A :=
  let v := firstn (e - p) (skipn p s) in if mx =? 0 then v else firstn mx v.
Definition full (mx p e : nat) : bool := negb (mx =? 0) && (p + mx <=? e).
Definition range (mx p e : nat) (s : list A) (ev : list (Z * T)) : dset A T :=
  let v := part mx p e s in mkDs v (seq 0 (length v)) (length v) ev.
Fixpoint ranges (mx : nat) (s : list A) (l : list (nat * T * verdict)) : list (dset A T) * option (dset A T) :=
  match l with
  | [] => ([], None)
  | (p, t, v) :: r =>
      let '(o, c) := ranges mx s r in
      match v with
      | Matching =>
          match r with
          | [] => let d := range mx p (length s) s [(0%Z, t)] in
                  if full mx p (length s) then ([d], None) else ([], Some d)
          | (q, u, _) :: _ =>
              (range mx p q s ((0%Z, t) :: (if full mx p q then [] else [(Z.of_nat (q - p), u)])) :: o, c)
          end
      | _ => (o, c)
      end
  end.
End Spec.
