(** Model of the block work loop: how many samples one call of Block::work hands to the user's
    processing function, which tags it applies and forwards, and what it publishes and consumes.

    Source: /repo/core/include/gnuradio-4.0/Block.hpp, Port.hpp, WorkStatus.hpp.

    Simplifications (all definitions of this file):
    - stream positions are counted from the place where the block starts reading (writing), so all
      synchronous ports share one input position and one output position;
    - the execution part ([work], [step]) has synchronous connected stream ports only; asynchronous and
      optional ports appear in the port cache ([minReq], [maxReq], [availOf]) but not in executions;
    - a processBulk function that calls consume/publish explicitly uses the same count on every port;
    - every output port gets the same tags, so there is one list of published tags;
    - the lifecycle is reduced to running / stopped (its transitions are modelled in LifecycleModel);
    - settings are part of the user state; a tag acts on it through one function [app]
      (autoUpdate followed by applyChangedSettings);
    - message handling, staged settings from messages, the epilogue function and merged blocks
      are not modelled. *)
From Coq Require Import List NArith ZArith Lia Bool.
Import ListNotations.
Local Open Scope N_scope.

(** std::numeric_limits<std::size_t>::max(), also gr::undefined_size. *)
Definition umax : N := 2 ^ 64 - 1.

(** size_t arithmetic (64 bit). *)
Definition u64 (x : N) : N := x mod 2 ^ 64.

(** std::clamp as used in Block.hpp:1595, 1607, 1628. *)
Definition clamp (v lo hi : N) : N := if v <? lo then lo else if hi <? v then hi else v.

(** work::Status, WorkStatus.hpp:12-18. *)
Inductive status := ERROR | INSUFFICIENT_OUTPUT_ITEMS | INSUFFICIENT_INPUT_ITEMS | DONE | OK.

(** Comparisons with Status::OK and Status::DONE, WorkStatus.hpp:36, Block.hpp:2022. *)
Definition isOK (s : status) : bool := match s with OK => true | _ => false end.
Definition isDone (s : status) : bool := match s with DONE => true | _ => false end.

(** The port attributes read by PortCache, Block.hpp:168-330 and Port.hpp:576-585. *)
Record port := mkPort { pSync : bool; pOpt : bool; pConn : bool; pMin : N; pMax : N }.

(** PortCache::updateConfig, _minSamples: Block.hpp:233-239. *)
Definition effMin (p : port) : N := if pOpt p && negb (pConn p) then 0 else pMin p.

(** max_element_masked<SYNCHRONOUS>(_minSamples).value_or(0): Block.hpp:241. *)
Definition minReq (ps : list port) : N := fold_right (fun p a => if pSync p then N.max (effMin p) a else a) 0 ps.

(** min_element_masked<SYNCHRONOUS>(_maxSamples).value_or(undefined_size): Block.hpp:242. *)
Definition maxReq (ps : list port) : N := fold_right (fun p a => if pSync p then N.min (pMax p) a else a) umax ps.

(** PortCache::updateAvailable, _available: Block.hpp:254-260. *)
Definition effAvail (p : port) (n : N) : N := if pOpt p && negb (pConn p) then umax else n.

(** min_element_masked<SYNCHRONOUS>(_available).value_or(undefined_size): Block.hpp:261. *)
Fixpoint availOf (ps : list port) (ns : list N) : N :=
  match ps, ns with
  | p :: ps', n :: ns' => if pSync p then N.min (effAvail p n) (availOf ps' ns') else availOf ps' ns'
  | _, _ => umax
  end.

(** Tag propagation policies, annotated.hpp:75-100 and Block.hpp:680-683.  MergeTagPropagation and
    NoTagPropagation are not modelled. *)
Inductive policy := PDefault | PForward | PBackward.

(** forwardTagPropagation, backwardTagPropagation: Block.hpp:680-683. *)
Definition isFwd (p : policy) : bool := match p with PForward => true | _ => false end.
Definition isBwd (p : policy) : bool := match p with PBackward => true | _ => false end.

(** Block configuration: input_chunk_size, output_chunk_size, stride (Block.hpp:705-710),
    ResamplingControl::kEnabled, StrideControl::kEnabled (annotated.hpp:127, 161), the ports. *)
Record cfg := mkCfg {
  ics : N; ocs : N; stride : N; resEn : bool; strEn : bool;
  inP : list port; outP : list port; pol : policy }.

(** isStrideActiveAndNotDefault: Block.hpp:1548, 1565, 1616. *)
Definition strideActive (c : cfg) : bool := strEn c && negb (stride c =? 0) && negb (stride c =? ics c).

(** Block::inputSamplesToSkipBeforeNextChunk: Block.hpp:1546-1557.  Result: samples to skip, new strideCounter. *)
Definition skipBefore (c : cfg) (cnt avail : N) : N * N :=
  if strideActive c && (0 <? cnt) then (N.min cnt avail, cnt - N.min cnt avail) else (0, cnt).

(** Block::inputSamplesToConsumeAdjustedWithStride: Block.hpp:1563-1574. *)
Definition strideConsume (c : cfg) (cnt rem : N) : N * N :=
  if strideActive c && (cnt =? 0) && (0 <? rem)
  then (N.min (stride c) rem, stride c - N.min (stride c) rem) else (0, cnt).

(** The 'no resampling' branch of computeResampling: Block.hpp:1585-1597, repeated at 1598-1609. *)
Definition plainResampling (minIn maxIn minOut maxOut req : N) : N * N * status :=
  let maxSync := N.min maxIn maxOut in
  if maxSync <? minIn then (0, 0, INSUFFICIENT_INPUT_ITEMS)
  else if maxSync <? minOut then (0, 0, INSUFFICIENT_OUTPUT_ITEMS)
  else let r := clamp req (N.max minIn minOut) maxSync in (r, r, OK).

(** Block::computeResampling: Block.hpp:1576-1636. *)
Definition computeResampling (c : cfg) (minIn maxIn minOut maxOut req0 : N) : N * N * status :=
  let req := if req0 =? 0 then umax else req0 in
  if negb (resEn c) then plainResampling minIn maxIn minOut maxOut req
  else if (ics c =? 1) && (ocs c =? 1) then plainResampling minIn maxIn minOut maxOut req
  else
    let k := if strideActive c
             then (if (ics c <=? maxIn) && (ocs c <=? maxOut) then 1 else 0)
             else N.min (maxIn / ics c) (maxOut / ocs c) in
    if u64 (k * ics c) <? minIn then (0, 0, INSUFFICIENT_INPUT_ITEMS)
    else if u64 (k * ocs c) <? minOut then (0, 0, INSUFFICIENT_OUTPUT_ITEMS)
    else
      let full := (u64 (k * ics c), u64 (k * ocs c), OK) in
      if req <? u64 (k * ics c) then
        let req' := clamp req (N.max minIn (ics c)) maxIn in
        let k2 := N.min (req' / ics c) (maxOut / ocs c) in
        if (minIn <=? u64 (k2 * ics c)) && (minOut <=? u64 (k2 * ocs c))
        then (u64 (k2 * ics c), u64 (k2 * ocs c), OK) else full
      else full.

(** a - b saturating at 0: 'x > skip ? x - skip : 0', Block.hpp:1966-1968. *)
Definition after (x skip : N) : N := if skip <? x then x - skip else 0.

(** SampleLimits, Block.hpp:1943-1948, plus the strideCounter left behind by the skip. *)
Record limits := mkLim { lIn : N; lOut : N; lSkip : N; lCnt : N; lStat : status; lEos : bool }.

(** availableToProcess: Block.hpp:1966-1971, maxChunk = undefined_size (not a merged block). *)
Definition toProcess (c : cfg) (avIn nextTag nextEos skip : N) : N :=
  let minIn := minReq (inP c) in
  let tagAfter := after nextTag skip in
  let tagLimit := if minIn <=? tagAfter then tagAfter else umax in
  let ensureMin := if ics c <=? tagLimit then tagLimit else ics c in
  N.min (maxReq (inP c)) (N.min umax (N.min (after avIn skip) (N.min ensureMin (after nextEos skip)))).

(** Block::computeSampleLimits: Block.hpp:1950-1976.  [avIn], [avOut]: maxSyncAvailable of the port caches;
    [nextTag0], [nextEos]: result of getNextTagAndEosPosition. *)
Definition computeLimits (c : cfg) (cnt avIn avOut nextTag0 nextEos req : N) : limits :=
  let minIn := minReq (inP c) in
  let minOut := minReq (outP c) in
  let nextTag := if isFwd (pol c) then umax else nextTag0 in
  let (skip, cnt') := skipBefore c cnt (N.min avIn (N.min nextTag nextEos)) in
  let eosAfter := after nextEos skip in
  let '(rin, rout, st) :=
    computeResampling c (N.min minIn nextEos) (toProcess c avIn nextTag nextEos skip)
                      minOut (N.min (maxReq (outP c)) avOut) req in
  let eos := (nextEos <=? 0) || (eosAfter <? minIn) || (eosAfter <? ics c)
             || (u64 (ocs c * (eosAfter / ics c)) <? minOut) in
  mkLim rin rout skip cnt' st eos.

(** work::sanitiseProcessStatus: WorkStatus.hpp:27-32. *)
Definition zeroed (s : status) : bool :=
  match s with ERROR | INSUFFICIENT_OUTPUT_ITEMS | INSUFFICIENT_INPUT_ITEMS => true | _ => false end.

(** work::computePerformedWork: WorkStatus.hpp:35-40. *)
Definition performed (s : status) (pin pout : N) (isSource : bool) : N :=
  if isOK s then (if isSource then pout else pin) else 0.

(** Widths of simd_epilogue: Block.hpp:36-46 (static_assert: the width is a power of two). *)
Fixpoint halves (fuel : nat) (w : nat) : list nat :=
  match fuel with
  | O => []
  | S f => if (0 <? w / 2)%nat then (w / 2)%nat :: halves f (w / 2) else []
  end.

(** Number of main-loop rounds in invokeProcessOneSimd: 'for (; i + width <= n; i += width)', Block.hpp:1700-1704.
    Each round is listed as (start, width). *)
Fixpoint simdMain (fuel : nat) (w n i : nat) : list (nat * nat) * nat :=
  match fuel with
  | O => ([], i)
  | S f => if (i + w <=? n)%nat then let (r, j) := simdMain f w n (i + w) in ((i, w) :: r, j) else ([], i)
  end.

(** Epilogue rounds: Block.hpp:1705-1711. *)
Fixpoint simdTail (ws : list nat) (n i : nat) : list (nat * nat) :=
  match ws with
  | [] => []
  | w :: r => if (i + w <=? n)%nat then (i, w) :: simdTail r n (i + w) else simdTail r n i
  end.

(** The vector operations issued by invokeProcessOneSimd for [n] samples: Block.hpp:1699-1713. *)
Definition simdRounds (w n : nat) : list (nat * nat) :=
  let (r, i) := simdMain (S n) w n 0 in r ++ simdTail (halves w w) n i.

Section Exec.
Context {A B S T : Type}.

(** Tag slot: index, gr:end_of_stream == true in the map, the rest of the map.  Tag.hpp / Port.hpp:1376-1383. *)
Record tag := mkTag { tIdx : N; tEos : bool; tPay : T }.

(** nSamplesToNextTagConditional: Port.hpp:1386-1401. *)
Definition distTo (p : tag -> bool) (off pos : N) (ts : list tag) : N :=
  match find (fun t => (pos + off <=? tIdx t) && p t) ts with
  | Some t => tIdx t - pos
  | None => umax
  end.

(** getNextTagAndEosPosition, nextTag: Block.hpp:1525. *)
Definition nextTagOf (pos : N) (tss : list (list tag)) : N :=
  fold_right (fun ts a => N.min a (distTo (fun _ => true) 1 pos ts)) umax tss.

(** getNextTagAndEosPosition, nextEosTag: Block.hpp:1526 and Port.hpp:1376-1383. *)
Definition nextEosOf (pos : N) (tss : list (list tag)) : N :=
  fold_right (fun ts a => N.min a (distTo tEos 0 pos ts)) umax tss.

(** InputSpan::tags(untilLocalIndex): Port.hpp:656-663 (lower_bound on the index of the sorted tags,
    restricted to getTagsInRange(nSamples), Port.hpp:673-678). *)
Fixpoint takeTags (lim : N) (ts : list tag) : list tag :=
  match ts with
  | t :: r => if tIdx t <? lim then t :: takeTags lim r else []
  | [] => []
  end.

(** consumeTags: Port.hpp:665-668. *)
Fixpoint dropTags (lim : N) (ts : list tag) : list tag :=
  match ts with
  | t :: r => if tIdx t <? lim then dropTags lim r else t :: r
  | [] => []
  end.

(** What a processBulk/processOne dispatch reports: new user state, status, explicit consume()/publish() counts,
    data written to the output spans.  Block.hpp:1849-1917. *)
Record ures := mkRes { uS : S; uStat : status; uCons : option N; uPub : option N; uOut : list (list B) }.

(** The user's block: the processing function (state, input spans, output span size), the effect of a tag on
    the settings, the tag as forwarded (None: no key is forwarded), equality of tag maps. *)
Record ublock := mkUb {
  proc : S -> list (list A) -> N -> ures;
  app  : S -> T -> S;
  fwd  : S -> T -> option T;
  eqT  : T -> T -> bool }.

(** State of one block and its ports.  [qs]: unread samples per input port; [tgs]: unread tags per input port;
    [pos]/[opos]: samples consumed/published; [outs]: samples published per output port; [otags]: tags published. *)
Record state := mkSt {
  us : S; cnt : N; stopped : bool; pos : N; opos : N;
  qs : list (list A); tgs : list (list tag);
  outs : list (list B); otags : list (N * option T) }.

Variable c : cfg.
Variable u : ublock.

(** Length of a span. *)
Definition nlen {X} (l : list X) : N := N.of_nat (length l).

(** first(n) / subspan(n) of a span. *)
Definition takeN {X} (n : N) (l : list X) : list X := firstn (N.to_nat n) l.
Definition dropN {X} (n : N) (l : list X) : list X := skipn (N.to_nat n) l.

(** Tags visible to applyInputTagsFromPorts / forwardInputTags: Block.hpp:1118, 1267; only tags inside the span's
    range are held by the span (Port.hpp:673-678), hence the minimum. *)
Definition windowEnd (p n : N) : N := p + (if isBwd (pol c) then n else N.min 1 n).

(** applyInputTagsFromPorts: Block.hpp:1266-1287 (first loop). *)
Definition applyTags (s : S) (wins : list (list tag)) : S :=
  fold_left (fun s ts => fold_left (fun s t => app u s (tPay t)) ts s) wins s.

(** The dedup array of forwardInputTags: capacity 8, compared by index and map.  Block.hpp:1231-1259. *)
Definition dup (seen : list (N * T)) (t : tag) : bool :=
  existsb (fun e => (fst e =? tIdx t) && eqT u (snd e) (tPay t)) seen.

Fixpoint dedup (seen : list (N * T)) (ts : list tag) : list tag :=
  match ts with
  | [] => []
  | t :: r => if dup seen t then dedup seen r
              else t :: dedup (if (length seen <? 8)%nat then seen ++ [(tIdx t, tPay t)] else seen) r
  end.

(** forwardInputTags: Block.hpp:1112-1263, the payloads handed to publishTag, in order.  The offset is 0 in every case:
    the window of the default policy ends after the first sample, so relIndex <= 0 (Block.hpp:1159). *)
Definition forwarded (s : S) (wins : list (list tag)) : list T :=
  let ts := match wins with [w] => w | _ => dedup [] (concat wins) end in
  flat_map (fun t => match fwd u s (tPay t) with Some x => [x] | None => [] end) ts.

(** OutputSpan::publishTag drops when the tag ring is full: Port.hpp:727-731. *)
Definition room (n : nat) {X} (l : list X) : list X := firstn n l.

(** Appends to every output stream the samples published to it: publishSamples, Block.hpp:1013-1035. *)
Fixpoint zipApp {X} (a b : list (list X)) : list (list X) :=
  match a, b with
  | x :: a', y :: b' => (x ++ y) :: zipApp a' b'
  | _, _ => a
  end.

(** Consumption of samples and tags at the end of an input span's life: Port.hpp:612-636, with
    consumeOnlyFirstTag = !backwardTagPropagation (Block.hpp:1337-1342). *)
Definition consumeTagsOf (spanLen n : N) (p : N) (ts : list tag) : list tag :=
  if (spanLen =? 0) || (n =? 0) then ts
  else dropTags (p + (if isBwd (pol c) then n else 1)) ts.

(** publishEoS: Block.hpp:1396-1404; an end-of-stream tag one past the last published sample.  Simplified: the tag
    ring is assumed to have a slot for it. *)
Definition eosAt (p : N) : N * option T := (p, None).

(** One call of Block::work / workInternal: Block.hpp:2028-2171.  [req]: requestedWork; [space]: free space of each
    output buffer; [tagRoom]: free slots of the tag rings. *)
Definition work (st : state) (req : N) (space : list N) (tagRoom : nat) : state * status * N :=
  if stopped st then (st, DONE, 0)                                         (* checkLifecycle, 1920-1940 *)
  else
  let l := computeLimits c (cnt st) (availOf (inP c) (map nlen (qs st))) (availOf (outP c) space)
                         (nextTagOf (pos st) (tgs st)) (nextEosOf (pos st) (tgs st)) req in
  (* skip left-over stride: 2052-2056 *)
  let sk := lSkip l in
  let s1 := if 0 <? sk then applyTags (us st) (map (takeTags (windowEnd (pos st) sk)) (tgs st)) else us st in
  let tg1 := map (consumeTagsOf sk sk (pos st)) (tgs st) in
  let q1 := map (dropN sk) (qs st) in
  let p1 := pos st + sk in
  if lEos l then                                                           (* 2058-2075 *)
    (mkSt s1 (lCnt l) true p1 (opos st) q1 tg1 (outs st) (otags st ++ [eosAt (opos st)]), DONE, 0)
  else if (lIn l =? 0) && (lOut l =? 0) then                               (* 2077-2082 *)
    (mkSt s1 (lCnt l) false p1 (opos st) q1 tg1 (outs st) (otags st), lStat l, 0)
  else
  let spans := map (takeN (lIn l)) q1 in
  let wins := map (takeTags (windowEnd p1 (lIn l))) tg1 in
  let s2 := applyTags s1 wins in                                           (* 2091 *)
  let fts := forwarded s2 wins in                                          (* 2093-2097 *)
  let r := proc u s2 spans (lOut l) in                                     (* 2154 *)
  let pin0 := match uCons r with Some k => N.min (lIn l) k | None => lIn l end in
  let pout0 := match uPub r with Some k => N.min (lOut l) k | None => lOut l end in
  let pin := if zeroed (uStat r) then 0 else pin0 in                       (* 2163 *)
  let pout := if zeroed (uStat r) then 0 else pout0 in
  (* finaliseIO: 1989-2026 *)
  let tagsOut := if pout =? 0 then [] else room tagRoom fts in
  let npub := match uPub r with Some k => k | None => pout end in
  let '(ncons, cnt2) :=
     if pin =? 0 then (match uCons r with Some k => k | None => 0 end, lCnt l)
     else let (a, cn) := strideConsume c (lCnt l) (lIn l) in
          (match uCons r with Some k => k | None => if 0 <? a then a else pin end, cn) in
  let eos := if isDone (uStat r) then [eosAt (opos st + npub)] else [] in
  (mkSt (uS r) cnt2 (isDone (uStat r)) (p1 + ncons) (opos st + npub)
        (map (dropN ncons) q1) (map (consumeTagsOf (lIn l) ncons p1) tg1)
        (zipApp (outs st) (map (takeN npub) (uOut r)))
        (otags st ++ map (fun x => (opos st, Some x)) tagsOut ++ eos),
   uStat r, performed (uStat r) pin pout (match inP c with [] => true | _ => false end)).

(** What can happen to a block: new samples/tags arrive on an input port, or the scheduler calls work. *)
Inductive event :=
| Feed (i : nat) (xs : list A) (ts : list tag)
| Work (req : N) (space : list N) (tagRoom : nat).

(** Append at port [i]. *)
Fixpoint addAt {X} (i : nat) (xs : list X) (l : list (list X)) : list (list X) :=
  match l, i with
  | q :: r, O => (q ++ xs) :: r
  | q :: r, Datatypes.S j => q :: addAt j xs r
  | [], _ => []
  end.

(** One event. *)
Definition step (st : state) (e : event) : state :=
  match e with
  | Feed i xs ts => mkSt (us st) (cnt st) (stopped st) (pos st) (opos st)
                         (addAt i xs (qs st)) (addAt i ts (tgs st)) (outs st) (otags st)
  | Work req space tr => fst (fst (work st req space tr))
  end.

(** A sequence of events. *)
Definition run (st : state) (es : list event) : state := fold_left step es st.

(** A freshly started block: strideCounter = 0 (Block.hpp:715), nothing read or written. *)
Definition init (s0 : S) : state :=
  mkSt s0 0 false 0 0 (map (fun _ => []) (inP c)) (map (fun _ => []) (inP c)) (map (fun _ => []) (outP c)) [].

End Exec.
Arguments tag T : clear implicits.
Arguments ures B S : clear implicits.
Arguments ublock A B S T : clear implicits.
Arguments state A B S T : clear implicits.
Arguments event A T : clear implicits.
