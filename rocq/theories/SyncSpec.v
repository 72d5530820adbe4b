(* What a user of the synchronising block relies on: stated about the samples
   and tags on both sides, the reports of dropped samples, and the trigger
   times all inputs have in common. *)

From Coq Require Import Arith NArith List Bool Sorted Lia.
From Verif Require Import SyncModel.
Import ListNotations.

Local Open Scope nat_scope.

Section Spec.

Context {A : Type}.

(* tags of a span come in the order of their samples *)
Definition orderedTags (sp : sspan A) : Prop :=
  StronglySorted (fun t u => tRel t <= tRel u) (stgs sp).

(* one call: as many inputs as outputs as counters, at least one *)
Definition goodCall (st : sst) (ins : list (sspan A)) (outs : list nat) : Prop :=
  ins <> [] /\ length outs = length ins /\ length (nDrop st) = length ins
  /\ Forall orderedTags ins.

(* a synchronisation tag inside a span: a trigger name the filter lets pass and
   a time, on a sample that is there *)
Definition syncTag (c : scfg) (sp : sspan A) (t : stag) (time : N) : Prop :=
  In t (stgs sp) /\ tRel t < length (ssmp sp) /\ tTime t = Some time
  /\ exists n, tName t = Some n /\ (filt c = None \/ filt c = Some n).

(* distance of two times below the tolerance *)
Definition close (c : scfg) (a b : N) : Prop :=
  (a < b + tol c /\ b < a + tol c)%N.

(* T is the time of a sync tag, and every input has one close to it *)
Definition common (c : scfg) (ins : list (sspan A)) (T : N) : Prop :=
  (exists sp t, In sp ins /\ syncTag c sp t T)
  /\ (forall sp, In sp ins -> exists t u, syncTag c sp t u /\ close c T u).

Definition earliestCommon (c : scfg) (ins : list (sspan A)) (T : N) : Prop :=
  common c ins T /\ forall T', common c ins T' -> (T <= T')%N.

(* samples skipped by a call in front of what it published *)
Definition skipped (r : pres A) : nat := pCons r - length (pOut r).

(* maps forwarded at an offset, and the samples reported as dropped *)
Definition forwardedAt (p : nat) (ts : list (nat * otag)) : list N :=
  flat_map (fun t => match snd t with
                     | Fwd id => if fst t =? p then [id] else []
                     | Dropped _ => []
                     end) ts.

Definition reportsOf (base : nat) (ts : list (nat * otag)) : list (nat * N) :=
  flat_map (fun t => match snd t with
                     | Dropped n => [(base + fst t, n)]
                     | Fwd _ => []
                     end) ts.

(* maps on a sample of an input *)
Definition mapsAt (p : nat) (sp : sspan A) : list N :=
  flat_map (fun t => if tRel t =? p then [tId t] else []) (stgs sp).

(* a run: calls one after the other *)
Fixpoint runSync (c : scfg) (st : sst) (cs : list (list (sspan A) * list nat))
  : list (list (pres A)) * sst :=
  match cs with
  | [] => ([], st)
  | (ins, outs) :: cs' =>
      let '(st', rs) := syncBulk c st ins outs in
      let '(rss, st'') := runSync c st' cs' in
      (rs :: rss, st'')
  end.

(* every call of the run has n inputs and outputs and ordered tags *)
Definition goodRun (n : nat) (cs : list (list (sspan A) * list nat)) : Prop :=
  0 < n /\ Forall (fun cl => length (fst cl) = n /\ length (snd cl) = n
                             /\ Forall orderedTags (fst cl)) cs.

(* what port i did in every call *)
Definition noRes : pres A := mkPres 0 [] [].
Definition portRes (i : nat) (rss : list (list (pres A))) : list (pres A) :=
  map (fun rs => nth i rs noRes) rss.

(* the spans of input i are taken from its stream, each where the consumption
   of the calls before ended *)
Fixpoint fedSync (i : nat) (stream : list A) (cs : list (list (sspan A) * list nat))
                 (prs : list (pres A)) : Prop :=
  match cs, prs with
  | (ins, _) :: cs', r :: prs' =>
      (exists m sp, nth_error ins i = Some sp /\ ssmp sp = firstn m stream)
      /\ fedSync i (skipn (pCons r) stream) cs' prs'
  | _, _ => True
  end.

(* the stream an output carries, and the reports on it with their positions *)
Definition outStream (prs : list (pres A)) : list A := concat (map (@pOut A) prs).

Fixpoint outReports (base : nat) (prs : list (pres A)) : list (nat * N) :=
  match prs with
  | [] => []
  | r :: prs' => reportsOf base (pTags r) ++ outReports (base + length (pOut r)) prs'
  end.

(* dropped according to the reports up to a position *)
Definition reportedUpTo (p : nat) (reps : list (nat * N)) : N :=
  fold_right (fun x a => if fst x <=? p then (snd x + a)%N else a) 0%N reps.

Definition reportedAll (reps : list (nat * N)) : N :=
  fold_right (fun x a => (snd x + a)%N) 0%N reps.

Definition totalConsumed (prs : list (pres A)) : nat :=
  fold_right (fun r a => pCons r + a) 0 prs.

Definition totalSkipped (prs : list (pres A)) : nat :=
  fold_right (fun r a => skipped r + a) 0 prs.

End Spec.
