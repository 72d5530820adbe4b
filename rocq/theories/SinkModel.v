(* Model of the sinks that hand a stream to code outside the flow graph:
   /repo/blocks/basic/include/gnuradio-4.0/basic/DataSink.hpp
   (below "DS" means that file).
   Not modelled: names, units and ranges in the data sets (createDataset,
   DS:389-416), DataSetSink's matcher (a filter in front of the same queue),
   the numbers' 64-bit limits, and exceptions thrown by user callbacks. *)

From Coq Require Import Arith ZArith List Bool Lia.
Import ListNotations.

Local Open Scope nat_scope.

Section Sink.

(* Samples, tag maps, and the metadata tag built from the settings
   (Metadata::toTagMap, DS:372-386). *)
Context {A T M : Type}.

(* ---------- the streaming poller ---------- *)

(* What the listener writes into the tag queue.  DS:810, 818 *)
Inductive ptag : Type := Meta (m : M) | Plain (t : T).

(* OverflowPolicy, sizes of the queues, limits of process.
   DS:21-29, 63-65, 86-87, 800-803 *)
Record pcfg : Type := mkP { blocking : bool; capS : nat; capT : nat; minN : nat; maxN : nat }.

(* Between the two publications of a call (tags at DS:821, samples at DS:825):
   the samples still to be published and what will be added to the two drop
   counters (DS:827-828). *)
Record midway : Type := mkMid { kept : list A; dS : nat; dT : nat }.

(* Both queues, _pendingMetadata, _nPublishedSamples, samplesRead and the drop
   counters.  DS:75-85, 726-727.  The queues are lists, oldest first (the ring
   buffer itself: C01-C11). *)
Record pst : Type := mkPst {
  sq : list A; tq : list (nat * ptag); pend : option M; nPub : nat; nRead : nat;
  dropS : nat; dropT : nat; mid : option midway }.
Definition pst0 : pst := mkPst [] [] None 0 0 0 0 None.

(* ContinuousListener::process, poller mode, up to the publication of the
   tags; None while the blocking reservation of tags waits.  A tag carries its
   index in the data.  DS:800-822 *)
Definition pBegin (c : pcfg) (data : list A) (tags : list (nat * T)) (st : pst) : option pst :=
  match mid st with
  | Some _ => None
  | None =>
      let n := if blocking c then length data else min (length data) (capS c - length (sq st)) in
      let inRange := filter (fun e => fst e <? n) tags in
      let av := (match pend st with Some _ => 1 | None => 0 end) + length inRange in
      let nt := if blocking c then av else min av (capT c - length (tq st)) in
      let out := firstn nt ((match pend st with Some m => [(nPub st, Meta m)] | None => [] end)
                            ++ map (fun e => (nPub st + fst e, Plain (snd e))) inRange) in
      let m := mkMid (firstn n data) (length data - n) (av - nt) in
      if 0 <? n then
        if capT c - length (tq st) <? nt then None
        else Some (mkPst (sq st) (tq st ++ out) (if 0 <? nt then None else pend st) (nPub st) (nRead st)
                         (dropS st) (dropT st) (Some m))
      else Some (mkPst (sq st) (tq st) (pend st) (nPub st) (nRead st) (dropS st) (dropT st) (Some m))
  end.

(* The rest of the call; None while the blocking reservation of samples waits.
   DS:823-829 *)
Definition pEnd (c : pcfg) (st : pst) : option pst :=
  match mid st with
  | None => None
  | Some m =>
      if capS c - length (sq st) <? length (kept m) then None
      else Some (mkPst (sq st ++ kept m) (tq st) (pend st) (nPub st + length (kept m)) (nRead st)
                       (dropS st + dS m) (dropT st + dT m) None)
  end.

(* setMetadata; under the same lock as process (DS:538-541, 623), so not
   between the two halves.  DS:755 *)
Definition pMeta (m : M) (st : pst) : option pst :=
  match mid st with
  | Some _ => None
  | None => Some (mkPst (sq st) (tq st) (Some m) (nPub st) (nRead st) (dropS st) (dropT st) None)
  end.

(* std::clamp *)
Definition clamp (v lo hi : nat) : nat := if v <? lo then lo else if hi <? v then hi else v.

(* calculateNSamplesToProcess.  DS:67-70 *)
Definition nToProcess (available requested lo hi : nat) : nat := min available (clamp requested lo hi).

(* std::ranges::find_if_not, as the number of tags in front.  DS:105 *)
Fixpoint prefixWhile (p : nat -> bool) (l : list (nat * ptag)) : list (nat * ptag) :=
  match l with [] => [] | e :: r => if p (fst e) then e :: prefixWhile p r else [] end.

(* StreamingPoller::process; [withTags]: the handler takes tags.  The result
   is what the handler is given, None if it is not called.  Simplified: one
   step (the tags are read after the samples were counted; tags that arrive in
   between belong to later samples).  DS:96-122 *)
Definition pProc (c : pcfg) (withTags : bool) (requested : nat) (st : pst)
  : pst * option (list A * list (nat * ptag)) :=
  let n := nToProcess (length (sq st)) requested (minN c) (maxN c) in
  if n <? minN c then (st, None)
  else
    let rel := prefixWhile (fun i => i <? nRead st + n) (tq st) in
    if withTags
    then (mkPst (skipn n (sq st)) (skipn (length rel) (tq st)) (pend st) (nPub st) (nRead st + n) (dropS st) (dropT st) (mid st),
          Some (firstn n (sq st), map (fun e => (fst e - nRead st, snd e)) rel))
    else (mkPst (skipn n (sq st)) [] (pend st) (nPub st) (nRead st + n) (dropS st) (dropT st) (mid st),
          Some (firstn n (sq st), [])).

(* The steps of the two threads. *)
Inductive pev : Type :=
| EvMeta (m : M) | EvBegin (data : list A) (tags : list (nat * T)) | EvEnd | EvProc (withTags : bool) (requested : nat).

(* A run: the state, what the handler was given, and the calls begun (the last
   two are bookkeeping of the model). *)
Record ptrace : Type := mkPtr {
  pS : pst; got : list (list A * list (nat * ptag)); begun : list (list A * list (nat * T)) }.
Definition ptr0 : ptrace := mkPtr pst0 [] [].
Definition pstep (c : pcfg) (x : ptrace) (e : pev) : ptrace :=
  match e with
  | EvMeta m => match pMeta m (pS x) with Some s => mkPtr s (got x) (begun x) | None => x end
  | EvBegin d t => match pBegin c d t (pS x) with Some s => mkPtr s (got x) (begun x ++ [(d, t)]) | None => x end
  | EvEnd => match pEnd c (pS x) with Some s => mkPtr s (got x) (begun x) | None => x end
  | EvProc w r =>
      match pProc c w r (pS x) with
      | (s, Some g) => mkPtr s (got x ++ [g]) (begun x)
      | (s, None) => mkPtr s (got x) (begun x)
      end
  end.
Definition prun (c : pcfg) (es : list pev) : ptrace := fold_left (pstep c) es ptr0.

(* ---------- the streaming callback ---------- *)

(* The loop of ContinuousListener::process in callback mode, for a callback
   that takes tags: what it is given, and the metadata still pending.  [fuel]
   bounds the loop.  DS:759-792 *)
Fixpoint cbLoop (fuel chunk off : nat) (data : list A) (tags : list (nat * T)) (pn : option M)
  : list (list A * list (nat * ptag)) * option M :=
  match fuel with
  | 0 => ([], pn)
  | S fuel' =>
      if off <? length data then
        let len := min chunk (length data - off) in
        let mine := filter (fun e => (off <=? fst e) && (fst e <? off + len)) tags in
        let out := (match pn with Some m => [(0, Meta m)] | None => [] end)
                   ++ map (fun e => (fst e - off, Plain (snd e))) mine in
        let '(r, pn') := cbLoop fuel' chunk (off + len) data tags None in
        ((firstn len (skipn off data), out) :: r, pn')
      else ([], pn)
  end.
Definition cbProcess (maxChunk : nat) (data : list A) (tags : list (nat * T)) (pn : option M)
  : list (list A * list (nat * ptag)) * option M :=
  cbLoop (length data) (if maxChunk =? 0 then length data else maxChunk) 0 data tags pn.

(* ---------- listeners that publish data sets ---------- *)

(* trigger::MatchResult *)
Inductive verdict : Type := Matching | NotMatching | Ignore.

(* The user's matcher with its state (_matcherState, DS:681), and whether a
   tag map is empty. *)
Context {F : Type} (mt : F -> T -> F * verdict) (emptyT : T -> bool).

(* A data set: values, axis, extent, timing events.  DS:389-416 *)
Record dset : Type := mkDs { vals : list A; axis : list nat; ext : nat; evs : list (Z * T) }.

(* All tags of a call are at its first sample (DS:418-425): work() ends a span
   in front of the next tag (Block.hpp:1964-1971). *)
Record call : Type := mkCall { cTags : list T; cSmp : list A }.

(* HistoryBuffer::push_front of a range: the newest sample is the first
   (C18-C21).  DS:629-631 *)
Definition pushHist (cap : nat) (smp h : list A) : list A := firstn cap (rev smp ++ h).
(* ensureHistorySize: capacity and contents; the old contents are pushed in
   the order of begin() to end(), which is newest first.  DS:637-651 *)
Definition ensureHist (n : nat) (h : nat * list A) : nat * list A :=
  if n <=? fst h then h else (n, pushHist n (snd h) []).

(* TriggerCapture; TriggerListener.  DS:842-853 *)
Record capture : Type := mkCap { cds : dset; cRem : nat }.
Record tst : Type := mkT { tf : F; caps : list capture }.

(* The tags of a call: those that match open a capture.  DS:866-878 *)
Fixpoint tOpen (pre post : nat) (hist : list A) (ts : list T) (st : tst) : tst :=
  match ts with
  | [] => st
  | t :: r =>
      if emptyT t then tOpen pre post hist r st
      else
        let '(f, v) := mt (tf st) t in
        let n := min pre (length hist) in
        tOpen pre post hist r
          (mkT f (match v with
                  | Matching => caps st ++ [mkCap (mkDs (rev (firstn n hist)) (seq 0 n) n [(Z.of_nat n, t)]) post]
                  | _ => caps st
                  end))
  end.

(* One round over the captures: those completed, in order, and those that
   stay.  DS:880-897 *)
Definition feed (smp : list A) (c : capture) : capture :=
  let k := min (cRem c) (length smp) in
  let d := cds c in
  mkCap (mkDs (vals d ++ firstn k smp)
              (axis d ++ seq (length (vals d)) k)
              (length (vals d) + k) (evs d))
        (cRem c - k).
Fixpoint tFeed (smp : list A) (l : list capture) : list dset * list capture :=
  match l with
  | [] => ([], [])
  | c :: r =>
      let c' := feed smp c in
      let '(p, q) := tFeed smp r in
      if cRem c' =? 0 then (cds c' :: p, q) else (p, c' :: q)
  end.
Definition tProcess (pre post : nat) (hist : list A) (k : call) (st : tst) : tst * list dset :=
  let st1 := tOpen pre post hist (cTags k) st in
  let '(p, q) := tFeed (cSmp k) (caps st1) in (mkT (tf st1) q, p).

(* TriggerListener::stop: what is not empty is published.  DS:900-906 *)
Definition tStop (st : tst) : list dset :=
  filter (fun d => 0 <? length (vals d)) (map cds (caps st)).

(* The sink calls the listener, then pushes the samples into the history.
   DS:616-634 *)
Record ttrace : Type := mkTt { ttS : tst; ttH : list A; ttOut : list dset }.
Definition tstep (pre post cap : nat) (x : ttrace) (k : call) : ttrace :=
  let '(s, o) := tProcess pre post (ttH x) k (ttS x) in
  mkTt s (pushHist cap (cSmp k) (ttH x)) (ttOut x ++ o).
Definition trun (pre post cap : nat) (f0 : F) (h0 : list A) (ks : list call) : ttrace :=
  fold_left (tstep pre post cap) ks (mkTt (mkT f0 []) h0 []).

(* MultiplexedListener.  DS:913-963 *)
Record mst : Type := mkM { mf : F; mcur : option dset }.
Fixpoint mTags (ts : list T) (st : mst) : mst * list dset :=
  match ts with
  | [] => (st, [])
  | t :: r =>
      let '(f, v) := mt (mf st) t in
      let '(cur, p) :=
        match v, mcur st with
        | Ignore, c => (c, [])
        | _, None => (None, [])
        | _, Some d => (None, [mkDs (vals d) (axis d) (ext d) (evs d ++ [(Z.of_nat (length (vals d)), t)])])
        end in
      let cur' := match v with Matching => Some (mkDs [] [] 0 [(0%Z, t)]) | _ => cur end in
      let '(st', q) := mTags r (mkM f cur') in (st', p ++ q)
  end.
(* [mx] = 0: unlimited.  DS:948-962 *)
Definition mSamples (mx : nat) (smp : list A) (st : mst) : mst * list dset :=
  match mcur st with
  | None => (st, [])
  | Some d =>
      let old := length (vals d) in
      let n := if mx =? 0 then length smp else min (length smp) (mx - old) in
      let d' := if 0 <? n then mkDs (vals d ++ firstn n smp) (axis d ++ seq old n) (old + n) (evs d) else d in
      if negb (mx =? 0) && (old + n =? mx) then (mkM (mf st) None, [d']) else (mkM (mf st) (Some d'), [])
  end.
Definition mProcess (mx : nat) (k : call) (st : mst) : mst * list dset :=
  let '(st1, p) := mTags (cTags k) st in
  let '(st2, q) := mSamples mx (cSmp k) st1 in (st2, p ++ q).
Record mtrace : Type := mkMt { mtS : mst; mtOut : list dset }.
Definition mstep (mx : nat) (x : mtrace) (k : call) : mtrace :=
  let '(s, o) := mProcess mx k (mtS x) in mkMt s (mtOut x ++ o).
Definition mrun (mx : nat) (f0 : F) (ks : list call) : mtrace := fold_left (mstep mx) ks (mkMt (mkM f0 None) []).

(* SnapshotListener.  The delay in samples is a parameter (DS:1000-1003
   computes it from the sample rate in single precision; not modelled).
   DS:976-1028 *)
Record snap : Type := mkSnap { nTag : T; nTrig : nat; nRem : nat }.
Record nst : Type := mkN { nf : F; snaps : list snap }.
Fixpoint nOpen (delay : nat) (ts : list T) (st : nst) : nst :=
  match ts with
  | [] => st
  | t :: r =>
      if emptyT t then nOpen delay r st
      else
        let '(f, v) := mt (nf st) t in
        nOpen delay r (mkN f (match v with Matching => snaps st ++ [mkSnap t delay delay] | _ => snaps st end))
  end.
Fixpoint nFeed (smp : list A) (l : list snap) : list dset * list snap :=
  match l with
  | [] => ([], [])
  | s :: r =>
      let '(p, q) := nFeed smp r in
      match nth_error smp (nRem s) with
      | None => (p, mkSnap (nTag s) (nTrig s) (nRem s - length smp) :: q)
      | Some x => (mkDs [x] [0] 1 [((- Z.of_nat (nTrig s))%Z, nTag s)] :: p, q)
      end
  end.
Definition nProcess (delay : nat) (k : call) (st : nst) : nst * list dset :=
  let st1 := nOpen delay (cTags k) st in
  let '(p, q) := nFeed (cSmp k) (snaps st1) in (mkN (nf st1) q, p).
Record ntrace : Type := mkNt { ntS : nst; ntOut : list dset }.
Definition nstep (delay : nat) (x : ntrace) (k : call) : ntrace :=
  let '(s, o) := nProcess delay k (ntS x) in mkNt s (ntOut x ++ o).
Definition nrun (delay : nat) (f0 : F) (ks : list call) : ntrace := fold_left (nstep delay) ks (mkNt (mkN f0 []) []).

(* ---------- the queue of data sets ---------- *)

Context {D : Type}.
(* DataSetPoller and publishDataSet; a blocking reservation that waits leaves
   the state.  DS:125-152, 696-714, 1162-1180 *)
Record qst : Type := mkQ { dq : list D; dDrop : nat }.
Definition qPut (block : bool) (cap : nat) (d : D) (st : qst) : option qst :=
  if 0 <? cap - length (dq st) then Some (mkQ (dq st ++ [d]) (dDrop st))
  else if block then None else Some (mkQ (dq st) (S (dDrop st))).
Definition qProc (lo hi requested : nat) (st : qst) : qst * option (list D) :=
  let n := nToProcess (length (dq st)) requested lo hi in
  if n <? lo then (st, None) else (mkQ (skipn n (dq st)) (dDrop st), Some (firstn n (dq st))).
Inductive qev : Type := QPut (d : D) | QProc (requested : nat).
(* [qIn]: the data sets handed over so far (those whose call returned). *)
Record qtrace : Type := mkQtr { qS : qst; qGot : list (list D); qIn : list D }.
Definition qstep (block : bool) (cap lo hi : nat) (x : qtrace) (e : qev) : qtrace :=
  match e with
  | QPut d => match qPut block cap d (qS x) with Some s => mkQtr s (qGot x) (qIn x ++ [d]) | None => x end
  | QProc r => match qProc lo hi r (qS x) with
               | (s, Some g) => mkQtr s (qGot x ++ [g]) (qIn x)
               | (s, None) => mkQtr s (qGot x) (qIn x)
               end
  end.
Definition qrun (block : bool) (cap lo hi : nat) (es : list qev) : qtrace :=
  fold_left (qstep block cap lo hi) es (mkQtr (mkQ [] 0) [] []).

End Sink.

Arguments ptag : clear implicits.
Arguments dset : clear implicits.
Arguments call : clear implicits.
Arguments pst : clear implicits.
Arguments ptrace : clear implicits.
Arguments pev : clear implicits.
Arguments midway : clear implicits.
Arguments capture : clear implicits.
Arguments tst : clear implicits.
Arguments ttrace : clear implicits.
Arguments mst : clear implicits.
Arguments mtrace : clear implicits.
Arguments snap : clear implicits.
Arguments nst : clear implicits.
Arguments ntrace : clear implicits.
Arguments qst : clear implicits.
Arguments qev : clear implicits.
Arguments qtrace : clear implicits.
Arguments Meta {T M}.
Arguments Plain {T M}.
