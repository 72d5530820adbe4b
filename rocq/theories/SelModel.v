(* Model of the block that routes inputs to outputs:
   /repo/blocks/basic/include/gnuradio-4.0/basic/Selector.hpp
   (below "Selector.hpp" means that file; "Port.hpp" is
   /repo/core/include/gnuradio-4.0/Port.hpp).
   [None] as the result of a call stands for an access outside a span, which
   is undefined behaviour in the code. *)

From Coq Require Import Arith List Bool Lia.
Import ListNotations.

Local Open Scope nat_scope.

Section Selector.

Context {A T : Type}.

(* The samples a port offers together with its tags.  A tag carries its
   position relative to the first sample and its map.
   Port.hpp:596-686 (InputSpan, rawTags, tags), Port.hpp:687-755 (OutputSpan).
   Simplified: relative positions are not negative, because the block
   consumes the tags of everything it consumes (Selector.hpp:250; a span whose
   tags were not consumed by hand does so when it is destroyed). *)
Record span : Type := mkSpan { smp : list A; tgs : list (nat * T) }.

(* std::map<size_t, vector<size_t>>: ascending keys.  Selector.hpp:97-98 *)
Definition imap : Type := list (nat * list nat).

(* m[k].push_back(v).  Selector.hpp:124-125 *)
Fixpoint mapPush (k v : nat) (m : imap) : imap :=
  match m with
  | [] => [(k, [v])]
  | (k', vs) :: m' =>
      if k <? k' then (k, [v]) :: m
      else if k =? k' then (k', vs ++ [v]) :: m'
      else (k', vs) :: mapPush k v m'
  end.

(* What the map check throws.  Selector.hpp:116, 128, 132, 135 *)
Inductive mapErr : Type := ErrSizes | ErrDuplicate | ErrInput | ErrOutput.

(* duplicateSet.insert(..).second is false.  Selector.hpp:127 *)
Definition seenPair (p : nat * nat) (seen : list (nat * nat)) : bool :=
  existsb (fun q => (fst p =? fst q) && (snd p =? snd q)) seen.

(* The loop over the pairs: both maps are extended before the checks.
   Selector.hpp:119-137 *)
Fixpoint buildMaps (nIn nOut : nat) (seen ps : list (nat * nat))
                   (io oi : imap) : imap * imap * option mapErr :=
  match ps with
  | [] => (io, oi, None)
  | (i, o) :: ps' =>
      let io' := mapPush i o io in
      let oi' := mapPush o i oi in
      if seenPair (i, o) seen then (io', oi', Some ErrDuplicate)
      else if nIn <=? i then (io', oi', Some ErrInput)
      else if nOut <=? o then (io', oi', Some ErrOutput)
      else buildMaps nIn nOut ((i, o) :: seen) ps' io' oi'
  end.

(* The settings and the two maps derived from them.  Selector.hpp:88-98 *)
Record sel : Type := mkSel {
  nIn : nat; nOut : nat;
  mapIn : list nat; mapOut : list nat;
  backPressure : bool; syncCombined : bool;
  inOut : imap; outIn : imap }.

(* A fresh block.  Selector.hpp:88-98 *)
Definition freshSel : sel := mkSel 0 0 [] [] false true [] [].

(* The members that one change of settings touches.  Selector.hpp:88-93, 102 *)
Record change : Type := mkChange {
  cIn : option nat; cOut : option nat;
  cMapIn : option (list nat); cMapOut : option (list nat);
  cBack : option bool; cSync : option bool }.

(* The members have been written before settingsChanged is called.
   Selector.hpp:102-108 *)
Definition orKeep {X : Type} (c : option X) (old : X) : X :=
  match c with Some x => x | None => old end.

(* settingsChanged.  Selector.hpp:102-139.  Simplified: the assertion of line
   111 is off (NDEBUG); the limits 1..32 of n_inputs and n_outputs (lines
   88-89) belong to the settings; resizing the port vectors is recorded by
   [nIn] and [nOut] themselves. *)
Definition settingsChanged (c : change) (s : sel) : sel * option mapErr :=
  let ni := orKeep (cIn c) (nIn s) in
  let no := orKeep (cOut c) (nOut s) in
  let mi := orKeep (cMapIn c) (mapIn s) in
  let mo := orKeep (cMapOut c) (mapOut s) in
  let bp := orKeep (cBack c) (backPressure s) in
  let sy := orKeep (cSync c) (syncCombined s) in
  match cMapIn c, cMapOut c with
  | None, None => (mkSel ni no mi mo bp sy (inOut s) (outIn s), None)
  | _, _ =>
      if length mi =? length mo then
        let '(io, oi, e) := buildMaps ni no [] (combine mi mo) [] [] in
        (mkSel ni no mi mo bp sy io oi, e)
      else (mkSel ni no mi mo bp sy [] [], Some ErrSizes)
  end.

(* One call's spans: the select samples, the inputs, the room of the monitor
   and of the outputs.  Selector.hpp:142 *)
Record call : Type := mkCall {
  selq : list nat; ins : list span; monCap : nat; caps : list nat }.

(* What the call leaves: samples and tags published per output and on the
   monitor, samples consumed per input and on select.
   Selector.hpp:150, 172, 222, 242, 249 *)
Record result : Type := mkResult {
  rOut : nat -> span; rMon : span; rCons : list nat; rSel : nat }.

(* Nothing published.  Selector.hpp:155 *)
Definition emptySpan : span := mkSpan [] [].

(* ins[i], outs[o].size() and ins[i].size(); the indices have been checked by
   [inRange].  Selector.hpp:178-179, 227-230 *)
Definition inAt (c : call) (i : nat) : span := nth i (ins c) emptySpan.
Definition capAt (c : call) (o : nat) : nat := nth o (caps c) 0.
Definition avail (c : call) (i : nat) : nat := length (smp (inAt c i)).

(* _selectedSrc: the last select sample of this call, or the largest size_t,
   written None.  Selector.hpp:148-153 *)
Definition selected (c : call) : option nat :=
  match selq c with
  | [] => None
  | x :: q => Some (last q x)
  end.

(* _selectedSrc == inIndex.  Selector.hpp:180, 228 *)
Definition isSel (c : call) (i : nat) : bool :=
  match selected c with Some s => s =? i | None => false end.

(* nSamplesToConsume: a vector as a function of its index; None stands for the
   largest size_t.  Selector.hpp:175 *)
Definition counts : Type := nat -> option nat.

(* v[k] = x for a vector as a function.  Selector.hpp:184, 198, 235 *)
Definition upd {X : Type} (f : nat -> X) (k : nat) (x : X) : nat -> X :=
  fun j => if j =? k then x else f j.

(* std::min with the largest size_t.  Selector.hpp:184 *)
Definition omin (a b : option nat) : option nat :=
  match a, b with
  | None, _ => b
  | _, None => a
  | Some x, Some y => Some (Nat.min x y)
  end.

(* std::ranges::min.  Selector.hpp:178, 193 *)
Definition ominl (l : list (option nat)) : option nat := fold_right omin None l.

(* copyToOutput: the samples go behind what the output already holds, the tags
   of the copied samples move along.  Selector.hpp:156-173.  The offset is
   outOffsets[outIndex]; where the code passes the largest size_t for
   outIndex the offset is 0 and the output is still empty. *)
Definition copyTo (n : nat) (inp out : span) : span :=
  let off := length (smp out) in
  mkSpan (smp out ++ firstn n (smp inp))
         (tgs out ++ map (fun t => (fst t + off, snd t))
                         (filter (fun t => fst t <? n) (tgs inp))).

(* The bound of one output in the first loop.  Selector.hpp:178-182 *)
Definition groupAvail (c : call) (o : nat) (is : list nat) : option nat :=
  let a := omin (ominl (map (fun i => Some (avail c i)) is))
                (Some (capAt c o / length is)) in
  if existsb (isSel c) is then omin a (Some (monCap c)) else a.

(* nSamplesToConsume[inIndex] = min(.., n) for the inputs of one output.
   Selector.hpp:183-185 *)
Definition lowerAll (n : option nat) (is : list nat) (f : counts) : counts :=
  fold_left (fun f i => upd f i (omin (f i) n)) is f.

(* The first loop.  Selector.hpp:177-186 *)
Definition firstCounts (c : call) (oi : imap) : counts :=
  fold_left (fun f g => lowerAll (groupAvail c (fst g) (snd g)) (snd g) f)
            oi (fun _ => None).

(* nSamplesToConsume[i] > currentMin, with None the largest value.
   Selector.hpp:195 *)
Definition above (a b : option nat) : bool :=
  match a, b with
  | None, Some _ => true
  | Some x, Some y => y <? x
  | _, None => false
  end.

(* nSamplesToConsume[inIndex] = currentMin.  Selector.hpp:198 *)
Definition setAll (n : option nat) (is : list nat) (f : counts) : counts :=
  fold_left (fun f i => upd f i n) is f.

(* One output in the loop that levels the counts.  Selector.hpp:193-199 *)
Definition levelGroup (g : nat * list nat) (st : counts * bool) : counts * bool :=
  let cur := ominl (map (fst st) (snd g)) in
  (setAll cur (snd g) (fst st),
   snd st || existsb (fun i => above (fst st i) cur) (snd g)).

(* One round over all outputs.  Selector.hpp:191-200 *)
Definition levelPass (oi : imap) (f : counts) : counts * bool :=
  fold_left (fun st g => levelGroup g st) oi (f, false).

(* while (changed).  Selector.hpp:189-201; [fuel] bounds the rounds and the
   result None says that it was not enough. *)
Fixpoint levelLoop (fuel : nat) (oi : imap) (f : counts) : option counts :=
  match fuel with
  | 0 => None
  | S k => let '(f', changed) := levelPass oi f in
           if changed then levelLoop k oi f' else Some f'
  end.

(* Rounds allowed: every round that changes something lowers a count.
   Bounds the loop of Selector.hpp:190. *)
Definition levelFuel (n : nat) (f : counts) : nat :=
  S (fold_right (fun i a => match f i with Some x => x + a | None => a end)
                0 (seq 0 n)).

(* One sample of one input into a combined output, with the tags of that
   sample.  Selector.hpp:212-219 *)
Definition putOne (c : call) (iS i : nat) (out : span) : option span :=
  match nth_error (smp (inAt c i)) iS with
  | None => None
  | Some x =>
      let pos := length (smp out) in
      Some (mkSpan (smp out ++ [x])
                   (tgs out ++ map (fun t => (pos, snd t))
                       (filter (fun t => fst t =? iS) (tgs (inAt c i)))))
  end.

(* for inIndex : inIndices.  Selector.hpp:211-220; a write behind the end of
   the output span is undefined *)
Fixpoint putRow (c : call) (cap iS : nat) (is : list nat) (out : span) : option span :=
  match is with
  | [] => Some out
  | i :: is' =>
      if length (smp out) <? cap then
        match putOne c iS i out with
        | None => None
        | Some out' => putRow c cap iS is' out'
        end
      else None
  end.

(* for iS < nSamplesToConsume[0], from iS on, k rounds.  Selector.hpp:210-221 *)
Fixpoint putRows (c : call) (cap iS k : nat) (is : list nat) (out : span) : option span :=
  match k with
  | 0 => Some out
  | S k' => match putRow c cap iS is out with
            | None => None
            | Some out' => putRows c cap (S iS) k' is out'
            end
  end.

(* One output once the counts are known.  The loop of a combined output runs
   to the count of input 0; if that is the largest size_t it leaves every
   span.  Selector.hpp:203-224 *)
Definition syncOutput (c : call) (f : counts) (g : nat * list nat) : option span :=
  match snd g with
  | [] => Some emptySpan
  | [i] => match f i with
           | Some n => Some (copyTo n (inAt c i) emptySpan)
           | None => None
           end
  | is => match f 0 with
          | Some n => putRows c (capAt c (fst g)) 0 n is emptySpan
          | None => None
          end
  end.

(* All outputs.  Selector.hpp:203 *)
Fixpoint syncOutputs (c : call) (f : counts) (oi : imap) (outs : nat -> span)
  : option (nat -> span) :=
  match oi with
  | [] => Some outs
  | g :: oi' => match syncOutput c f g with
                | None => None
                | Some o => syncOutputs c f oi' (upd outs (fst g) o)
                end
  end.

(* The synchronised branch.  Selector.hpp:177-224 *)
Definition syncBranch (c : call) (oi : imap) : option ((nat -> span) * counts) :=
  let f0 := firstCounts c oi in
  match levelLoop (levelFuel (length (ins c)) f0) oi f0 with
  | None => None
  | Some f => match syncOutputs c f oi (fun _ => emptySpan) with
              | None => None
              | Some outs => Some (outs, f)
              end
  end.

(* How much of one input is copied in the other branch.
   Selector.hpp:228-230 *)
Definition asyncCount (c : call) (outs : nat -> span) (i : nat) (os : list nat) : nat :=
  let a := fold_right (fun o a => Nat.min (capAt c o - length (smp (outs o))) a)
                      (avail c i) os in
  if isSel c i then Nat.min a (monCap c) else a.

(* Copies to the outputs of one input; a copy behind the end of the output
   span is undefined.  Selector.hpp:232-234 *)
Fixpoint asyncCopies (c : call) (n : nat) (inp : span) (os : list nat)
                     (outs : nat -> span) : option (nat -> span) :=
  match os with
  | [] => Some outs
  | o :: os' =>
      if length (smp (outs o)) + n <=? capAt c o then
        asyncCopies c n inp os' (upd outs o (copyTo n inp (outs o)))
      else None
  end.

(* The branch without synchronisation.  Selector.hpp:226-236 *)
Fixpoint asyncBranch (c : call) (io : imap) (outs : nat -> span) (f : counts)
  : option ((nat -> span) * counts) :=
  match io with
  | [] => Some (outs, f)
  | (i, os) :: io' =>
      let n := asyncCount c outs i os in
      match asyncCopies c n (inAt c i) os outs with
      | None => None
      | Some outs' => asyncBranch c io' outs' (upd f i (Some n))
      end
  end.

(* sync_combined_ports and an output with more than one input.
   Selector.hpp:176 *)
Definition useSync (s : sel) : bool :=
  syncCombined s && existsb (fun g => 1 <? length (snd g)) (outIn s).

(* Every index of the maps names a port.  Both branches access every mapped
   input and output, so that an index out of range is undefined behaviour in
   either.  Selector.hpp:178-179, 227-230 *)
Definition inRange (s : sel) (c : call) : bool :=
  forallb (fun g => (fst g <? length (caps c))
                    && forallb (fun i => i <? length (ins c)) (snd g)) (outIn s).

(* The monitor.  Selector.hpp:239-244 *)
Definition monitorStep (c : call) (f : counts) : span * counts :=
  match selected c with
  | None => (emptySpan, f)
  | Some s =>
      if s <? length (ins c) then
        let n := match f s with
                 | Some k => Nat.min (Nat.min (avail c s) (monCap c)) k
                 | None => Nat.min (avail c s) (monCap c)
                 end in
        (copyTo n (inAt c s) emptySpan, upd f s (Some n))
      else (emptySpan, f)
  end.

(* nFinal.  Selector.hpp:247-248 *)
Definition finalCount (s : sel) (c : call) (f : counts) (i : nat) : nat :=
  match f i with
  | Some n => n
  | None => if backPressure s then 0 else avail c i
  end.

(* processBulk.  Selector.hpp:142-253 *)
Definition processBulk (s : sel) (c : call) : option result :=
  match inOut s with
  | [] => Some (mkResult (fun _ => emptySpan) emptySpan
                 (map (fun sp => if backPressure s then 0 else length (smp sp)) (ins c))
                 0)
  | _ =>
      if inRange s c then
        match (if useSync s then syncBranch c (outIn s)
               else asyncBranch c (inOut s) (fun _ => emptySpan) (fun _ => None)) with
        | None => None
        | Some (outs, f) =>
            let '(mon, f') := monitorStep c f in
            Some (mkResult outs mon
                    (map (finalCount s c f') (seq 0 (length (ins c))))
                    (length (selq c)))
        end
      else None
  end.

End Selector.

Arguments span : clear implicits.
Arguments call : clear implicits.
Arguments result : clear implicits.
