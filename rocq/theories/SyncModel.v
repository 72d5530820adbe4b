(* Model of the block that aligns several inputs by their trigger tags:
   /repo/blocks/basic/include/gnuradio-4.0/basic/SyncBlock.hpp
   (below "SyncBlock.hpp" means that file). *)

From Coq Require Import Arith NArith List Bool Lia.
Import ListNotations.

Local Open Scope nat_scope.

Section Sync.

Context {A : Type}.

(* A tag of an input: its position relative to the first sample of the span,
   the trigger name, the trigger time if there is one of type uint64, and the
   whole map, of which only the identity matters.
   SyncBlock.hpp:339-380.  Simplified: a name that is not a string is some
   other name; relative positions are not negative, because every call
   consumes the tags of what it consumes (lines 190, 208, 216, 228). *)
Record stag : Type := mkTag {
  tRel : nat; tName : option N; tTime : option N; tId : N }.

(* What one input offers.  SyncBlock.hpp:166 *)
Record sspan : Type := mkSp { ssmp : list A; stgs : list stag }.

(* Settings: the filter (None for the empty string), the tolerance and the
   history size.  SyncBlock.hpp:128-130 *)
Record scfg : Type := mkCfg { filt : option N; tol : N; hist : nat }.

(* _isStreamSynchronized and _nDroppedSamples.  SyncBlock.hpp:134-135 *)
Record sst : Type := mkSt { synced : bool; nDrop : list N }.

(* A tag on an output: the report of dropped samples or a forwarded map.
   SyncBlock.hpp:237, 245 *)
Inductive otag : Type := Dropped (n : N) | Fwd (id : N).

(* What a call does to one port: samples consumed, samples published and tags
   published with their offset.  SyncBlock.hpp:182-191 *)
Record pres : Type := mkPres {
  pCons : nat; pOut : list A; pTags : list (nat * otag) }.

(* isTimeDifferenceWithinTolerance.  SyncBlock.hpp:337 *)
Definition within (c : scfg) (t1 t2 : N) : bool :=
  ((if t2 <? t1 then t1 - t2 else t2 - t1) <? tol c)%N.

(* isSyncTag.  SyncBlock.hpp:339-360 *)
Definition isSync (c : scfg) (t : stag) : bool :=
  match tName t with
  | None => false
  | Some n =>
      (match filt c with None => true | Some f => (n =? f)%N end)
      && (match tTime t with None => false | Some _ => true end)
  end.

(* getTime: 0 without a time.  SyncBlock.hpp:362-376 *)
Definition getTime (t : stag) : N := match tTime t with Some x => x | None => 0%N end.

(* The sync times of one input.  SyncBlock.hpp:282-290 *)
Definition syncTimes (c : scfg) (sp : sspan) : list N :=
  map getTime (filter (fun t => isSync c t && (tRel t <? length (ssmp sp))) (stgs sp)).

(* std::set::insert.  SyncBlock.hpp:288 *)
Fixpoint setIns (x : N) (l : list N) : list N :=
  match l with
  | [] => [x]
  | y :: l' => if (x <? y)%N then x :: l
               else if (x =? y)%N then l
               else y :: setIns x l'
  end.

(* allSyncTimes: unique and ascending.  SyncBlock.hpp:280-292 *)
Definition allTimes (c : scfg) (ins : list sspan) : list N :=
  fold_left (fun l x => setIns x l) (flat_map (syncTimes c) ins) [].

(* The largest uint64, which stands for "no time".  SyncBlock.hpp:253, 301 *)
Definition noTime : N := (2 ^ 64 - 1)%N.

(* findSyncTime, with None for the largest uint64.  SyncBlock.hpp:277-302 *)
Definition findSyncTime (c : scfg) (ins : list sspan) : option N :=
  match find (fun cur => forallb (fun sp => existsb (fun t => within c cur t) (syncTimes c sp)) ins)
             (allTimes c ins) with
  | Some t => if (t =? noTime)%N then None else Some t
  | None => None
  end.

(* getAvailablePreSamples.  SyncBlock.hpp:304-312 *)
Definition preSamples (c : scfg) (sp : sspan) (idx : nat) : nat :=
  match find (fun t => (tRel t <? idx) && isSync c t) (stgs sp) with
  | Some t => idx - tRel t - 1
  | None => idx
  end.

(* getAvailablePostSamples.  SyncBlock.hpp:314-325 *)
Definition postSamples (c : scfg) (sp : sspan) (idx : nat) : nat :=
  match find (fun t => (idx <? tRel t) && (tRel t <? length (ssmp sp)) && isSync c t) (stgs sp) with
  | Some t => tRel t - idx - 1
  | None => length (ssmp sp) - idx - 1
  end.

(* SyncData: sync index, samples before and behind it.  SyncBlock.hpp:139-143 *)
Record sdata : Type := mkData { dIdx : nat; dPre : nat; dPost : nat }.

(* The data of one input: the first tag within the tolerance, whatever its
   name.  SyncBlock.hpp:260-268 *)
Definition dataOf (c : scfg) (T : N) (sp : sspan) : option sdata :=
  match find (fun t => within c (getTime t) T) (stgs sp) with
  | Some t => Some (mkData (tRel t) (preSamples c sp (tRel t)) (postSamples c sp (tRel t)))
  | None => None
  end.

(* push_back of the data that were found.  SyncBlock.hpp:265 *)
Fixpoint somes {X : Type} (l : list (option X)) : list X :=
  match l with
  | [] => []
  | Some x :: l' => x :: somes l'
  | None :: l' => somes l'
  end.

(* synchronize.  SyncBlock.hpp:251-274; the assertion of line 271 is off. *)
Definition synchronize (c : scfg) (ins : list sspan) : list sdata :=
  match findSyncTime c ins with
  | None => []
  | Some T => somes (map (dataOf c T) ins)
  end.

(* std::ranges::min of a non-empty range.  SyncBlock.hpp:173-175, 195-196 *)
Definition minl (l : list nat) : nat :=
  match l with
  | [] => 0
  | x :: l' => fold_left Nat.min l' x
  end.

(* getNSamplesBeforeSyncTag.  SyncBlock.hpp:327-335 *)
Definition beforeSync (c : scfg) (sp : sspan) : nat :=
  match find (isSync c) (stgs sp) with
  | Some t => Nat.min (tRel t) (length (ssmp sp))
  | None => length (ssmp sp)
  end.

(* static_cast<gr::Size_t>: 32 bits.  SyncBlock.hpp:237 *)
Definition toSize (n : N) : N := (n mod 2 ^ 32)%N.

(* publishDroppedSamplesTagIfNotZero.  SyncBlock.hpp:235-239 *)
Definition dropTag (n : N) : list (nat * otag) :=
  if (0 <? n)%N then [(0, Dropped (toSize n))] else [].

(* publishInputTags.  SyncBlock.hpp:241-248 *)
Definition inputTags (sp : sspan) (drop k : nat) : list (nat * otag) :=
  map (fun t => (tRel t - drop, Fwd (tId t)))
      (filter (fun t => (drop <=? tRel t) && (tRel t <? k + drop)) (stgs sp)).

(* One port when all can be aligned.  SyncBlock.hpp:179-191 *)
Definition alignPort (minPre k : nat) (sp : sspan) (d : sdata) (pending : N) : pres :=
  let drop := dIdx d - minPre in
  mkPres (drop + k) (firstn k (skipn drop (ssmp sp)))
         (dropTag (pending + N.of_nat drop) ++ inputTags sp drop k).

(* One port when samples in front of the next sync tag are copied.
   SyncBlock.hpp:200-209 *)
Definition copyPort (k : nat) (sp : sspan) (pending : N) : pres :=
  mkPres k (firstn k (ssmp sp)) (dropTag pending ++ inputTags sp 0 k).

(* What exceeds the history.  SyncBlock.hpp:213 *)
Definition excess (c : scfg) (sp : sspan) : nat :=
  if length (ssmp sp) <? hist c then 0 else length (ssmp sp) - hist c.

(* One port when the streams are not in sync.  SyncBlock.hpp:213-221, 225-231 *)
Definition dropPort (c : scfg) (sp : sspan) : pres := mkPres (excess c sp) [] [].

(* A loop over ports with two more vectors.  SyncBlock.hpp:178 *)
Fixpoint map3 {X Y Z R : Type} (f : X -> Y -> Z -> R) (l : list X) (m : list Y) (n : list Z) : list R :=
  match l, m, n with
  | x :: l', y :: m', z :: n' => f x y z :: map3 f l' m' n'
  | _, _, _ => []
  end.

(* A loop over ports with one more vector.  SyncBlock.hpp:199, 212 *)
Fixpoint map2 {X Y R : Type} (f : X -> Y -> R) (l : list X) (m : list Y) : list R :=
  match l, m with
  | x :: l', y :: m' => f x y :: map2 f l' m'
  | _, _ => []
  end.

(* processBulk with the spans of the inputs and the room of the outputs.
   SyncBlock.hpp:166-233 *)
Definition syncBulk (c : scfg) (st : sst) (ins : list sspan) (outs : list nat) : sst * list pres :=
  let data := synchronize c ins in
  if length data =? length ins then
    let minPre := minl (map dPre data) in
    let minPost := minl (map dPost data) in
    let k := Nat.min (minPre + 1 + minPost) (minl outs) in
    (mkSt true (map (fun _ => 0%N) ins), map3 (alignPort minPre k) ins data (nDrop st))
  else
    let k := Nat.min (minl (map (beforeSync c) ins)) (minl outs) in
    if synced st && (0 <? k) then
      (mkSt (synced st) (map (fun _ => 0%N) ins), map2 (copyPort k) ins (nDrop st))
    else
      (mkSt (synced st && forallb (fun sp => excess c sp =? 0) ins)
            (map2 (fun sp d => (d + N.of_nat (excess c sp))%N) ins (nDrop st)),
       map (dropPort c) ins).

(* A block that has just been given its ports.  SyncBlock.hpp:134-135, 156 *)
Definition freshSync (n : nat) : sst := mkSt false (repeat 0%N n).

End Sync.

Arguments sspan : clear implicits.
Arguments pres : clear implicits.
