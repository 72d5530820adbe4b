(* Model of the block that selects ranges of a stream by trigger tags, with
   data sets or with a stream as output:
   /repo/blocks/basic/include/gnuradio-4.0/basic/StreamToDataSet.hpp
   (below "S2D" means that file). *)

From Coq Require Import Arith ZArith List Bool Lia.
From Verif Require TriggerModel.
Import ListNotations.

Local Open Scope nat_scope.

(* What the matcher says of a tag: it opens a range, it ends a range, the
   filter has one side only.  S2D:452-467 *)
Record verdict : Type := mkV { vStart : bool; vEnd : bool; vSingle : bool }.
Definition silent : verdict := mkV false false false.
Definition triggers (v : verdict) : bool := vStart v || vEnd v || vSingle v.

(* Settings.  S2D:62-64.  Simplified: numbers are unbounded. *)
Record wcfg : Type := mkW { nPre : nat; nPost : nat; nMax : nat }.

(* AccumulationState; isSingleTrigger is never read.  S2D:80-88 *)
Record acc : Type := mkAcc {
  act : bool; preA : bool; postA : bool; rem : nat; nP : nat; nS : nat }.
Definition acc0 : acc := mkAcc false false false 0 0 0.

(* AccumulationState::update.  S2D:90-107 *)
Definition update (c : wcfg) (v : verdict) (a : acc) : acc :=
  let a1 :=
    if negb (act a) && vStart v
    then mkAcc true (0 <? nPre c) (postA a || vSingle v)
               (if vSingle v then nPost c else rem a) (nP a) 0
    else a in
  if act a1 && negb (postA a1) && vEnd v
  then mkAcc (act a1) (preA a1) true (nPost c) (nP a1) (nS a1)
  else a1.

(* AccumulationState::updatePostSamples.  S2D:109-117 *)
Definition updatePost (k : nat) (a : acc) : acc :=
  let more := negb (rem a - k =? 0) in
  mkAcc (act a && more) (preA a) (postA a && more) (rem a - k) (nP a) (nS a + k).

Section Win.

(* Samples, tags with a non-empty map and the states of the matcher.  A tag
   that is absent is None (the empty tag of S2D:179, 272). *)
Context {A T F : Type}.
Context (mt : F -> option T -> F * verdict) (f0 : F).

(* findFirstTriggerTag; [fs] are the states that are tried.  All tags of a
   span are at its first sample: work() ends a span in front of the next tag
   (Block.hpp:1964-1971) and a call that consumes anything consumes the tags of
   what it consumes (Port.hpp:612-633).  S2D:407-450 *)
Definition firstTrigger (fs : list F) (ts : list T) : option T :=
  match find (fun t => existsb (fun f => triggers (snd (mt f (Some t)))) fs) ts with
  | Some t => Some t
  | None => hd_error ts
  end.

(* One round of updateHistory for the samples: only with n_pre; the newest
   sample is the first and at most 1024 + n_pre are kept.  S2D:49, 75, 490-496 *)
Definition pushHist (c : wcfg) (smp h : list A) : list A :=
  if 0 <? nPre c then firstn (1024 + nPre c) (rev smp ++ h) else h.
(* The remembered tags grow older.  S2D:475-476, 484-485, 493-495 *)
Definition age (c : wcfg) (k : nat) (ts : list T) (h : list (nat * T)) : list (nat * T) :=
  if 0 <? nPre c then map (fun e => (fst e + k, snd e)) (h ++ map (pair 0) ts) else h.

(* ---------- data sets as output ---------- *)

(* A data set: values, axis in samples (before the division by the sample
   rate; S2D:559-564), timing events.  The names, units and meta information
   of initNewDataSet (S2D:566-583) and the range of updateMinMax are not
   modelled. *)
Record dset : Type := mkDs { vals : list A; axis : list Z; evs : list (nat * T) }.
Definition ds0 : dset := mkDs [] [] [].

(* _tempDataSets, _accState and _filterState side by side, the history, its
   tags and the tags merged into _mergedAutoForwardTag since it was last
   published, in order (simplified: the map keeps the last value of each key
   of the auto-forward list).  S2D:75-77, 127-129 *)
Record slot : Type := mkSlot { sds : dset; sacc : acc; sfl : F }.
Record dst : Type := mkDst {
  slots : list slot; dhist : list A; dhtags : list (nat * T); dmerged : list T }.
Definition dst0 : dst := mkDst [] [] [] [].

(* What a call does: samples consumed, data sets published, the merged tag
   published with the first of them.  S2D:369, 371-392 *)
Record dout : Type := mkDout { dCons : nat; dOut : list dset; dTag : list T }.

(* updateHistory, data set part.  S2D:469-516 *)
Definition updateHistoryD (c : wcfg) (ts : list T) (smp : list A) (st : dst) : dst :=
  if 0 <? length smp then
    mkDst (slots st)
          (pushHist c smp (dhist st))
          (filter (fun e => fst e <=? nPre c) (age c (length smp) ts (dhtags st)))
          (dmerged st ++ ts)
  else st.

(* The stop of the earliest range that is still open.  S2D:288-300 *)
Fixpoint stopFirst (c : wcfg) (t : option T) (sl : list slot) : list slot :=
  match sl with
  | [] => []
  | s :: r =>
      if negb (act (sacc s)) || postA (sacc s) then s :: stopFirst c t r
      else let '(f, v) := mt (sfl s) t in
           mkSlot (sds s) (if vEnd v then update c v (sacc s) else sacc s) f :: r
  end.

(* fillAxisValues.  S2D:559-564 *)
Definition fillAxis (from : Z) (n : nat) (d : dset) : list Z :=
  axis d ++ map (fun j => (from + Z.of_nat j)%Z) (seq 0 n).

(* The samples in front of the trigger.  S2D:315-334 *)
Definition copyPre (c : wcfg) (hist : list A) (htags : list (nat * T)) (s : slot) : slot :=
  let d := sds s in let a := sacc s in
  if preA a then
    let n := min (nPre c) (length hist) in
    mkSlot (mkDs (vals d ++ rev (firstn n hist))
                 (fillAxis (- Z.of_nat n)%Z n d)
                 (if 0 <? n
                  then evs d ++ map (fun e => (n - fst e, snd e)) (filter (fun e => fst e <=? n) htags)
                  else evs d))
           (mkAcc (act a) false (postA a) (rem a) n (nS a + n))
           (sfl s)
  else s.

(* [k] samples of the span and the tags on them.  S2D:339-341, 348-349, 358-364 *)
Definition takeSamples (k : nat) (ts : list T) (smp : list A) (a : acc) (d : dset) : dset :=
  if 0 <? k then
    mkDs (vals d ++ firstn k smp)
         (fillAxis (Z.of_nat (nS a) - Z.of_nat (nP a))%Z k d)
         (evs d ++ map (pair (nS a)) ts)
  else d.

(* The samples of the range and behind it.  S2D:336-364 *)
Definition copyBody (c : wcfg) (ts : list T) (smp : list A) (s : slot) : slot :=
  let d := sds s in let a := sacc s in
  let room := if nMax c =? 0 then length smp else min (nMax c - length (vals d)) (length smp) in
  if negb (postA a) then
    let k := room in
    mkSlot (takeSamples k ts smp a d)
           (mkAcc (act a) (preA a) (postA a) (rem a) (nP a) (nS a + k)) (sfl s)
  else
    let k := min room (rem a) in
    if 0 <? k
    then mkSlot (takeSamples k ts smp a d) (updatePost k a) (sfl s)
    else mkSlot d (mkAcc false (preA a) (postA a) (rem a) (nP a) (nS a)) (sfl s).

Definition copySlot (c : wcfg) (hist : list A) (htags : list (nat * T)) (ts : list T) (smp : list A) (s : slot) : slot :=
  if act (sacc s) then copyBody c ts smp (copyPre c hist htags s) else s.

(* The completed data sets in front, as far as there is room: those published
   and those that stay.  S2D:371-388 *)
Fixpoint publish (room : nat) (sl : list slot) : list dset * list slot :=
  match sl, room with
  | s :: r, S n => if act (sacc s) then ([], sl)
                   else let '(p, q) := publish n r in (sds s :: p, q)
  | _, _ => ([], sl)
  end.

(* The states that are tried on a tag.  S2D:420-438 *)
Definition tried (st : dst) : list F := f0 :: map sfl (slots st).

(* The new data set, if the tag opens a range.  S2D:274-285 *)
Definition openNew (c : wcfg) (t : option T) : list slot :=
  let '(f, v) := mt f0 t in if vStart v then [mkSlot ds0 (update c v acc0) f] else [].

(* processBulkDataSet.  S2D:262-395 *)
Definition dcall (c : wcfg) (ts : list T) (smp : list A) (room : nat) (st : dst) : dst * dout :=
  if match slots st with s :: _ => negb (act (sacc s)) && (room =? 0) | [] => false end
  then (st, mkDout 0 [] [])
  else
    let t := firstTrigger (tried st) ts in
    let sl := stopFirst c t (slots st ++ openNew c t) in
    match sl with
    | [] => (updateHistoryD c ts smp (mkDst [] (dhist st) (dhtags st) (dmerged st)), mkDout (length smp) [] [])
    | _ =>
        let sl' := map (copySlot c (dhist st) (dhtags st) ts smp) sl in
        let st' := updateHistoryD c ts smp (mkDst sl' (dhist st) (dhtags st) (dmerged st)) in
        let '(p, q) := publish room sl' in
        match p with
        | [] => (mkDst q (dhist st') (dhtags st') (dmerged st'), mkDout (length smp) [] [])
        | _ => (mkDst q (dhist st') (dhtags st') [], mkDout (length smp) p (dmerged st'))
        end
    end.

(* One call as the environment makes it: tags, samples and room.  Block.hpp:2077-2088 *)
Record call : Type := mkCall { cTags : list T; cSmp : list A; cRoom : nat }.

(* Any number of calls: the state, everything published and every merged tag
   that was published, and the part of the stream consumed, each sample with
   its tags.  (Bookkeeping of the model; not in the code.) *)
Definition spanOf (ts : list T) (smp : list A) : list (A * list T) :=
  match smp with [] => [] | x :: r => (x, ts) :: map (fun y => (y, [])) r end.
Record dtrace : Type := mkTr { trSt : dst; trOut : list dset; trTags : list T; trIn : list (A * list T) }.
Definition dtr0 : dtrace := mkTr dst0 [] [] [].
Definition dstep (c : wcfg) (x : dtrace) (k : call) : dtrace :=
  let '(st, o) := dcall c (cTags k) (cSmp k) (cRoom k) (trSt x) in
  mkTr st (trOut x ++ dOut o) (trTags x ++ dTag o) (trIn x ++ firstn (dCons o) (spanOf (cTags k) (cSmp k))).
Definition drun (c : wcfg) (ks : list call) : dtrace := fold_left (dstep c) ks dtr0.

(* settingsChanged: the settings that are accepted.  S2D:160-167 *)
Definition dcfgOk (c : wcfg) : bool := (nMax c =? 0) || (nPre c + nPost c <=? nMax c).

(* ---------- a stream as output ---------- *)

(* S2D:75-78, 127-129 *)
Record sst : Type := mkSst {
  sf : F; sa : acc; shist : list A; shtags : list (nat * T); smerged : list T }.
Definition sst0 : sst := mkSst f0 acc0 [] [] [].

(* A tag on the output: the merged tag or a tag of a sample.  S2D:229-245 *)
Inductive otag : Type := Merged (l : list T) | Own (t : T).

(* Samples consumed, samples published and tags with their offset. *)
Record sout : Type := mkSout { sCons : nat; sOut : list A; sTags : list (nat * otag) }.

(* updateHistory, stream part: the first [k] samples.  S2D:469-516 *)
Definition updateHistoryS (c : wcfg) (ts : list T) (smp : list A) (k : nat) (copyTags : bool) (st : sst) : sst :=
  let n := min k (length smp) in
  if 0 <? n then
    let ts' := if copyTags then ts else [] in
    if 0 <? nPre c then
      let h := age c n ts' (shtags st) in
      mkSst (sf st) (sa st) (pushHist c (firstn n smp) (shist st))
            (filter (fun e => fst e <=? nPre c) h)
            (smerged st ++ map snd (filter (fun e => negb (fst e <=? nPre c)) h))
    else mkSst (sf st) (sa st) (shist st) (shtags st) (smerged st ++ ts')
  else st.

(* processBulkStream.  S2D:176-260 *)
Definition scall (c : wcfg) (ts : list T) (smp : list A) (room : nat) (st : sst) : sst * sout :=
  let t := firstTrigger [sf st] ts in
  let '(f, v) := mt (sf st) t in
  let a := update c v (sa st) in
  let st1 := mkSst f a (shist st) (shtags st) (smerged st) in
  if negb (act a) then (updateHistoryS c ts smp (length smp) true st1, mkSout (length smp) [] [])
  else
    let np := if preA a then min (nPre c) (length (shist st)) else 0 in
    if room <? np then (st1, mkSout 0 [] [])
    else
      let pre := rev (firstn np (shist st)) in
      let a1 := mkAcc (act a) false (postA a) (rem a) (nP a) (nS a + np) in
      let avail := min (length smp) (room - np) in
      let k := if postA a then min (rem a) avail else avail in
      let a2 := if postA a then updatePost k a1 else mkAcc (act a1) (preA a1) (postA a1) (rem a1) (nP a1) (nS a1 + k) in
      if (np + k =? 0) && act a2 then (mkSst f a2 (shist st) (shtags st) (smerged st), mkSout 0 [] [])
      else
        let pub := 0 <? np + k in
        let tags :=
          if pub then
            (match smerged st with [] => [] | m => [(0, Merged m)] end)
            ++ map (fun e => (if (0 <? nPre c) && (fst e <? np) then np - fst e else 0, Own (snd e))) (shtags st)
            ++ (if 0 <? k then map (fun x => (np, Own x)) ts else [])
          else [] in
        let st2 := if pub then mkSst f a2 (shist st) [] [] else mkSst f a2 (shist st) (shtags st) (smerged st) in
        let n := if act a2 then k else length smp in
        (updateHistoryS c ts smp n (negb pub) st2, mkSout n (pre ++ firstn k smp) tags).

(* Any number of calls; calls offer what the environment has, the trace keeps
   what was consumed. *)
Record strace : Type := mkStr { stSt : sst; stOut : list A; stTags : list (nat * otag); stIn : list (A * list T) }.
Definition str0 : strace := mkStr sst0 [] [] [].
Definition sstep (c : wcfg) (x : strace) (k : call) : strace :=
  let '(st, o) := scall c (cTags k) (cSmp k) (cRoom k) (stSt x) in
  mkStr st (stOut x ++ sOut o)
        (stTags x ++ map (fun e => (length (stOut x) + fst e, snd e)) (sTags o))
        (stIn x ++ firstn (sCons o) (spanOf (cTags k) (cSmp k))).
Definition srun (c : wcfg) (ks : list call) : strace := fold_left (sstep c) ks str0.

End Win.

Arguments slot : clear implicits.
Arguments dset : clear implicits.
Arguments dst : clear implicits.
Arguments dout : clear implicits.
Arguments dtrace : clear implicits.
Arguments sst : clear implicits.
Arguments sout : clear implicits.
Arguments strace : clear implicits.
Arguments otag : clear implicits.
Arguments call : clear implicits.
Arguments dst0 {A T F}.
Arguments dtr0 {A T F}.

(* detectTrigger with the basic trigger filter; the empty tag matches nothing.
   S2D:452-467 *)
Definition detect (m : TriggerModel.str) (f : TriggerModel.state) (t : option TriggerModel.tag) : TriggerModel.state * verdict :=
  let '(f', r) := TriggerModel.filter m (match t with Some t => t | None => [] end) f in
  (f', match r with
       | Some TriggerModel.Matching => mkV true false (match TriggerModel.singleKey f' with Some b => b | None => false end)
       | Some TriggerModel.NotMatching => mkV false true (match TriggerModel.singleKey f' with Some b => b | None => false end)
       | _ => silent
       end).
