(** Model of the settings of a block: values stored per context and time, activation of a context, values taken over
    from tags, staging and application, defaults, expiry.

    Source: /repo/core/include/gnuradio-4.0/Settings.hpp and /repo/core/src/Settings.cpp (the non-Emscripten build).

    Simplifications (all definitions of this file):
    - parameter names and context names are numbers; the context "" is 0; names are ordered like the numbers; the prefix
      "gr:" has been removed (tag::settingsKey, Tag.hpp:180-186);
    - values are numbers; what depends on the type of the field is part of the block description [bdesc];
    - a map is a list of pairs; only its lookups matter; an std::set of names is a list;
    - the readings of the system clock are arguments, in the order in which the code reads the clock;
    - a std::vector sorted by time is searched from the front, which on a sorted vector finds the same place as
      lower_bound;
    - the elements of the vector stored under a context name carry only the time: their name is the name they are stored
      under (addStoredParameters, Settings.cpp:344-348);
    - the user's settingsChanged and reset callbacks do not change fields; meta_information is not modelled; empty values
      (monostate) are not passed to set; the mutex is modelled in the last section only. *)
From Coq Require Import List NArith Arith Lia Bool.
Import ListNotations.
Local Open Scope N_scope.

(** property_map, ValueMap.hpp (its own model is ValueMapModel). *)
Definition pmap : Type := list (N * N).

(** find_value. *)
Fixpoint pget (m : pmap) (k : N) : option N :=
  match m with
  | [] => None
  | (k', v) :: r => if k' =? k then Some v else pget r k
  end.

(** insert_or_assign. *)
Fixpoint pput (m : pmap) (k v : N) : pmap :=
  match m with
  | [] => [(k, v)]
  | (k', v') :: r => if k' =? k then (k, v) :: r else (k', v') :: pput r k v
  end.

(** emplace: an existing entry stays, ValueMap.hpp:2085-2092. *)
Definition pins (m : pmap) (k v : N) : pmap := match pget m k with Some _ => m | None => m ++ [(k, v)] end.

(** insert(first, last): ValueMap.hpp:2112-2118. *)
Definition pinsAll (m add : pmap) : pmap := fold_left (fun m kv => pins m (fst kv) (snd kv)) add m.

(** insert_or_assign of every entry (the readers at Settings.hpp:1238-1256). *)
Definition pputAll (m add : pmap) : pmap := fold_left (fun m kv => pput m (fst kv) (snd kv)) add m.

(** contains on a set of names. *)
Definition has (k : N) (s : list N) : bool := existsb (N.eqb k) s.

(** erase on a set of names. *)
Definition without (k : N) (s : list N) : list N := filter (fun x => negb (x =? k)) s.

(** SettingsCtx: time and context name, Settings.hpp:217-221. *)
Definition ctx : Type := (N * N)%type.
Definition ctxEqb (a b : ctx) : bool := (fst a =? fst b) && (snd a =? snd b).

(** What the dispatch tables know of the block's members, Settings.hpp:614-762:
    [writ]: writable members (allWritableMembers, parameterSetters, autoUpdateHandlers, stagedAppliers);
    [conv]: convertParameter; [holds]: the value has exactly the member's type; [valid]: validate_and_set;
    [fwdTag]: the name is in tag::kDefaultTags (Tag.hpp:188) or in autoForwardParameters. *)
Record bdesc := mkB {
  writ : list N; conv : N -> N -> option N; holds : N -> N -> bool; valid : N -> N -> bool; fwdTag : N -> bool }.

(** A stored parameter set with its time, Settings.hpp:388-391. *)
Definition entry : Type := (N * pmap)%type.

(** CtxSettingsBase, Settings.hpp:517-544, and the block's fields.
    [stored]: _storedParameters; [autoU]: _autoUpdateParameters; [dflt]: _defaultParameters; [staged]: _stagedParameters;
    [active]: _activeParameters; [fields]: the readable members of the block; [actx]: _activeCtx; [chg]: _changed;
    [expiry]: expiry_time. *)
Record st := mkS {
  stored : list (N * list entry); autoU : list (ctx * list N); dflt : pmap; staged : pmap; active : pmap;
  fields : pmap; actx : ctx; chg : bool; expiry : N }.

(** numeric_limits<uint64_t>::max(): no expiry, Settings.hpp:544. *)
Definition never : N := 2 ^ 64 - 1.

(** Freshly constructed settings of a block with the given field values, Settings.hpp:522-544. *)
Definition blank (f : pmap) : st := mkS [] [] [] [] [] f (0, 0) false never.

(** Lookup in an std::map of contexts. *)
Fixpoint aget {X} (l : list (ctx * X)) (c : ctx) : option X :=
  match l with
  | [] => None
  | (c', x) :: r => if ctxEqb c' c then Some x else aget r c
  end.

(** Assignment / creation of an entry. *)
Fixpoint aput {X} (l : list (ctx * X)) (c : ctx) (x : X) : list (ctx * X) :=
  match l with
  | [] => [(c, x)]
  | (c', x') :: r => if ctxEqb c' c then (c, x) :: r else (c', x') :: aput r c x
  end.

(** erase. *)
Definition adel {X} (l : list (ctx * X)) (c : ctx) : list (ctx * X) := filter (fun e => negb (ctxEqb (fst e) c)) l.

(** _storedParameters.find. *)
Fixpoint sget (l : list (N * list entry)) (n : N) : option (list entry) :=
  match l with
  | [] => None
  | (n', x) :: r => if n' =? n then Some x else sget r n
  end.

(** _storedParameters[name] = vec, the map stays ordered by name. *)
Fixpoint sput (l : list (N * list entry)) (n : N) (x : list entry) : list (N * list entry) :=
  match l with
  | [] => [(n, x)]
  | (n', x') :: r => if n' =? n then (n, x) :: r else if n <? n' then (n, x) :: l else (n', x') :: sput r n x
  end.

(** The part of a sorted vector before / from lower_bound(t). *)
Fixpoint before (t : N) (v : list entry) : list entry :=
  match v with
  | e :: r => if fst e <? t then e :: before t r else []
  | [] => []
  end.
Fixpoint from (t : N) (v : list entry) : list entry :=
  match v with
  | e :: r => if fst e <? t then from t r else v
  | [] => []
  end.

(** vec.back(), rbegin. *)
Definition lastOf {X} (v : list X) : option X := match rev v with e :: _ => Some e | [] => None end.

Section Settings.
Variable B : bdesc.
(** _matchPred: table entry, searched name, attempt (Settings.hpp:519, 539). *)
Variable pred : N -> N -> N -> option bool.
(** Bound on the attempts (the loop of findBestMatchCtx has none). *)
Variable fuel : nat.

(** One attempt over all stored names: Settings.cpp:245-252.  None: no answer, go on; Some None: nullopt returned. *)
Fixpoint tryNames (names : list N) (search a : N) : option (option N) :=
  match names with
  | [] => None
  | n :: r => match pred n search a with
              | None => Some None
              | Some true => Some (Some n)
              | Some false => tryNames r search a
              end
  end.

(** The retry loop: Settings.cpp:243-253.  Running out of fuel gives None here; in the code the loop never ends. *)
Fixpoint attempts (f : nat) (names : list N) (search a : N) : option N :=
  match f with
  | O => None
  | S f' => match tryNames names search a with
            | Some r => r
            | None => attempts f' names search (a + 1)
            end
  end.

(** findBestMatchCtx: Settings.cpp:232-255. *)
Definition findName (l : list (N * list entry)) (n : N) : option N :=
  match l with
  | [] => None
  | _ => match sget l n with
         | Some _ => Some n
         | None => attempts fuel (map fst l) n 0
         end
  end.

(** The time chosen by findBestMatchSettingsCtx within one vector: Settings.cpp:266-283. *)
Definition findTime (v : list entry) (t : N) : option N :=
  match lastOf v with
  | None => None
  | Some b => if (t =? 0) || (fst b <=? t) then Some (fst b)
              else match from t v with
                   | [] => Some (fst b)
                   | e :: _ => if fst e =? t then Some (fst e)
                               else match lastOf (before t v) with Some p => Some (fst p) | None => None end
                   end
  end.

(** findBestMatchSettingsCtx: Settings.cpp:257-285. *)
Definition findBest (s : st) (c : ctx) : option ctx :=
  match findName (stored s) (snd c) with
  | None => None
  | Some n => match sget (stored s) n with
              | None => None
              | Some v => match findTime v (fst c) with Some t => Some (t, n) | None => None end
              end
  end.

(** find_if on the time: Settings.cpp:297. *)
Definition byTime (v : list entry) (t : N) : option pmap :=
  match find (fun e => fst e =? t) v with Some e => Some (snd e) | None => None end.

(** getBestMatchStoredParameters: Settings.cpp:287-300. *)
Definition getBest (s : st) (c : ctx) : option pmap :=
  match findBest s c with
  | None => None
  | Some (t, n) => match sget (stored s) n with Some v => byTime v t | None => None end
  end.

(** getBestMatchAutoUpdateParameters: Settings.cpp:302-309. *)
Definition getBestAuto (s : st) (c : ctx) : option (list N) :=
  match findBest s c with None => None | Some b => aget (autoU s) b end.

(** 'if (!contains(ctx)) { inherited or all writable members }': Settings.hpp:966-976, Settings.cpp:128-138, 331-341. *)
Definition ensureAuto (s : st) (c : ctx) : st :=
  match aget (autoU s) c with
  | Some _ => s
  | None => mkS (stored s) (aput (autoU s) c (match getBestAuto s c with Some x => x | None => writ B end))
                (dflt s) (staged s) (active s) (fields s) (actx s) (chg s) (expiry s)
  end.

(** Replacing single members of the state (plain assignments in the code). *)
Definition setStored (s : st) x := mkS x (autoU s) (dflt s) (staged s) (active s) (fields s) (actx s) (chg s) (expiry s).
Definition setAuto (s : st) x := mkS (stored s) x (dflt s) (staged s) (active s) (fields s) (actx s) (chg s) (expiry s).
Definition setStagedMap (s : st) x := mkS (stored s) (autoU s) (dflt s) x (active s) (fields s) (actx s) (chg s) (expiry s).
Definition setActx (s : st) x := mkS (stored s) (autoU s) (dflt s) (staged s) (active s) (fields s) x (chg s) (expiry s).
Definition setChg (s : st) x := mkS (stored s) (autoU s) (dflt s) (staged s) (active s) (fields s) (actx s) x (expiry s).
Definition setDflt (s : st) x := mkS (stored s) (autoU s) x (staged s) (active s) (fields s) (actx s) (chg s) (expiry s).

(** addStoredParameters: Settings.cpp:330-349. *)
Definition addStored (s : st) (m : pmap) (c : ctx) : st :=
  let s1 := ensureAuto s c in
  let v := match sget (stored s1) (snd c) with Some v => v | None => [] end in
  setStored s1 (sput (stored s1) (snd c) (before (fst c) v ++ (fst c, m) :: from (fst c) v)).

(** elem.context.time + expiry_time <= now, in 64 bits: Settings.cpp:363. *)
Definition expired (e now : N) (x : entry) : bool := (fst x + e) mod 2 ^ 64 <=? now.

(** The contexts erased from _autoUpdateParameters after remove_if: the elements left behind the new end
    (Settings.cpp:363-364, 352-356).  remove_if moves the kept elements forward, so an element behind the new end that was
    kept has been moved from: its time is still there, its context string is empty (libstdc++, libc++). *)
Definition leftBehind (e now n : N) (v : list entry) : list ctx :=
  map (fun x => if expired e now x then (fst x, n) else (fst x, 0))
      (skipn (length (filter (fun x => negb (expired e now x)) v)) v).

(** The number of elements erased as outdated: Settings.cpp:372-384. *)
Definition outdated (now : N) (v : list entry) : nat :=
  match from now v with
  | [] => (length v - 1)%nat
  | e :: _ => if fst e =? now then length (before now v)
              else if (1 <? length (before now v))%nat then (length (before now v) - 1)%nat else 0%nat
  end.

(** One round of removeExpiredStoredParameters, for one context name: Settings.cpp:361-385. *)
Definition purge (e now n : N) (v : list entry) (au : list (ctx * list N)) : list entry * list (ctx * list N) :=
  let '(v1, au1) := if e =? never then (v, au)
                    else (filter (fun x => negb (expired e now x)) v, fold_left adel (leftBehind e now n v) au) in
  match v1 with
  | [] => (v1, au1)
  | _ => (skipn (outdated now v1) v1, fold_left adel (map (fun x => (fst x, n)) (firstn (outdated now v1) v1)) au1)
  end.

(** removeExpiredStoredParameters: Settings.cpp:351-387. *)
Fixpoint purgeAll (e now : N) (l : list (N * list entry)) (au : list (ctx * list N))
  : list (N * list entry) * list (ctx * list N) :=
  match l with
  | [] => ([], au)
  | (n, v) :: r => let '(v1, au1) := purge e now n v au in
                   let '(r1, au2) := purgeAll e now r au1 in ((n, v1) :: r1, au2)
  end.
Definition removeExpired (s : st) (now : N) : st :=
  let '(l, au) := purgeAll (expiry s) now (stored s) (autoU s) in setAuto (setStored s l) au.

(** The loop of set over the given parameters: Settings.hpp:981-999.  Result: the new map, the remaining auto-update
    names, the parameters that are not writable members, and whether a conversion failed (gr::log::fatal throws). *)
Fixpoint setLoop (ps : pmap) (m : pmap) (au : list N) (ret : pmap) : pmap * list N * pmap * bool :=
  match ps with
  | [] => (m, au, ret, true)
  | (k, v) :: r =>
      if has k (writ B)
      then match conv B k v with
           | None => (m, au, ret, false)
           | Some v' => setLoop r (pput m k v') (without k au) ret
           end
      else setLoop r m au (pput ret k v)
  end.

(** 'if (ctx.time == 0ULL) ctx.time = now': Settings.hpp:957-959 and others. *)
Definition timed (now : N) (c : ctx) : ctx := (if fst c =? 0 then now else fst c, snd c).

(** set: Settings.hpp:953-1013.  [now1]: time of the call, [now2]: time read by removeExpiredStoredParameters.
    Result None: an exception was thrown. *)
Definition set (s : st) (now1 now2 : N) (ps : pmap) (c0 : ctx) : st * option pmap :=
  let c := timed now1 c0 in
  let m0 := match getBest s c with Some m => m | None => dflt s end in
  let s1 := ensureAuto s c in
  let au0 := match aget (autoU s1) c with Some x => x | None => [] end in
  let '(m, au, ret, ok) := setLoop ps m0 au0 [] in
  let s2 := setAuto s1 (aput (autoU s1) c au) in
  if ok then (removeExpired (addStored s2 m c) now2, Some ret) else (s2, None).

(** doSetStagedImpl: Settings.hpp:600-621.  None: an exception was thrown. *)
Fixpoint stageLoop (ps : pmap) (stg ret : pmap) : pmap * option pmap :=
  match ps with
  | [] => (stg, Some ret)
  | (k, v) :: r =>
      if has k (writ B)
      then match conv B k v with None => (stg, None) | Some v' => stageLoop r (pput stg k v') ret end
      else stageLoop r stg (pput ret k v)
  end.
Definition isEmpty {X} (l : list X) : bool := match l with [] => true | _ => false end.
Definition setStaged (s : st) (ps : pmap) : st * option pmap :=
  let '(stg, r) := stageLoop ps (staged s) [] in
  let s1 := setStagedMap s stg in
  match r with
  | None => (s1, None)
  | Some ret => (if isEmpty stg then s1 else setChg s1 true, Some ret)
  end.

(** activateContext: Settings.cpp:106-161.  Outer None: an exception was thrown. *)
Definition activate (s : st) (now : N) (c0 : ctx) : st * option (option ctx) :=
  let c := timed now c0 in
  match findBest s c with
  | None => (s, Some None)
  | Some b =>
      if ctxEqb b (actx s) then (s, Some (Some b))
      else if snd b =? snd (actx s) then
        match getBest s c with
        | None => (s, Some (Some b))
        | Some m =>
            let s1 := ensureAuto s b in
            let au := match aget (autoU s1) b with Some x => x | None => [] end in
            match setStaged s1 (filter (fun kv => negb (has (fst kv) au)) m) with
            | (s2, None) => (s2, None)
            | (s2, Some _) => (setChg (setActx s2 b) true, Some (Some b))
            end
        end
      else
        match getBest s c with
        | None => (s, Some None)
        | Some m => (setChg (setActx (setStagedMap s (pinsAll (staged s) m)) b) true, Some (Some b))
        end
  end.

(** removeContext: Settings.cpp:163-199. *)
Fixpoint eraseTime (v : list entry) (t : N) : option (list entry) :=
  match v with
  | [] => None
  | e :: r => if fst e =? t then Some r else match eraseTime r t with Some r' => Some (e :: r') | None => None end
  end.
Definition sdel (l : list (N * list entry)) (n : N) : list (N * list entry) := filter (fun e => negb (fst e =? n)) l.
Definition removeContext (s : st) (now1 now2 : N) (c0 : ctx) : st * bool :=
  if snd c0 =? 0 then (s, false)
  else match sget (stored s) (snd c0) with
       | None => (s, false)
       | Some v =>
           let c := timed now1 c0 in
           match eraseTime v (fst c) with
           | None => (s, false)
           | Some v' =>
               let s1 := setStored s (if isEmpty v' then sdel (stored s) (snd c) else sput (stored s) (snd c) v') in
               (if snd (actx s1) =? snd c then fst (activate s1 now2 (0, 0)) else s1, true)
           end
       end.

(** storeDefaults: Settings.hpp:1015, 1249-1256. *)
Definition storeDefaults (s : st) : st := setDflt s (pputAll (dflt s) (fields s)).

(** The loop of applyStagedParameters over the staged values: Settings.hpp:1172-1184 and applyStagedImpl, 647-733.
    Result: fields, appliedParameters, forwardParameters. *)
Definition okVal (k v : N) : bool := holds B k v && valid B k v.
Fixpoint applyLoop (ps : pmap) (f ap fw : pmap) : pmap * pmap * pmap :=
  match ps with
  | [] => (f, ap, fw)
  | (k, v) :: r =>
      if has k (writ B)
      then let fw' := if fwdTag B k then pput fw k v else fw in
           if okVal k v then applyLoop r (pput f k v) (pput ap k v) fw' else applyLoop r f ap fw'
      else applyLoop r f ap fw
  end.

(** applyStagedParameters: Settings.hpp:1154-1213.  The branches for the staged names reset_default and store_default are
    left out: only names of members are ever staged, and no member has such a name.
    Result: appliedParameters, forwardParameters. *)
Definition applyStaged (s : st) : st * pmap * pmap :=
  let '(f, ap, fw) := applyLoop (staged s) (fields s) [] [] in
  (mkS (stored s) (autoU s) (dflt s) [] (pputAll (active s) f) f (actx s) false (expiry s), ap, fw).

(** Block::applyChangedSettings, settings part: Block.hpp:1289-1322 (applied only if changed() says so). *)
Definition applyChanged (s : st) : st := if chg s then fst (fst (applyStaged s)) else s.

(** resetDefaults: Settings.hpp:1017-1034. *)
Definition resetDefaults (s : st) (now1 now2 now3 : N) : st :=
  let s1 := addStored s (dflt s) (now1, 0) in
  let s2 := fst (activate s1 now2 (0, 0)) in
  let '(s3, _, _) := applyStaged s2 in
  removeExpired s3 now3.

(** A tag: its values, the context name and the trigger time if given (contextInTag, triggeredTimeInTag:
    Settings.cpp:391-424). *)
Record tagMap := mkT { tVals : pmap; tCtx : option N; tTime : option N }.

(** tagCarriesRelevantKey: Settings.hpp:1042-1071. *)
Definition relevant (t : tagMap) : bool :=
  existsb (fun kv => has (fst kv) (writ B)) (tVals t)
  || (match tCtx t with Some _ => true | None => false end) || (match tTime t with Some _ => true | None => false end).

(** createSettingsCtxFromTag: Settings.cpp:426-444. *)
Definition tagContext (now : N) (t : tagMap) : option ctx :=
  match tCtx t with
  | None => None
  | Some n => Some (timed now (match tTime t with Some x => x | None => 0 end, n))
  end.

(** The loop of autoUpdate: Settings.hpp:1120-1138 and autoUpdateImpl, 333-374. *)
Fixpoint tagLoop (ps : pmap) (ctxChanged : bool) (act : pmap) (au : list N) (stg : pmap) (was : bool) : pmap * bool :=
  match ps with
  | [] => (stg, was)
  | (k, v) :: r =>
      if has k (writ B)
      then if negb ctxChanged && match pget act k with Some a => a =? v | None => false end
           then tagLoop r ctxChanged act au stg was
           else if has k au && holds B k v then tagLoop r ctxChanged act au (pput stg k v) true
           else tagLoop r ctxChanged act au stg was
      else tagLoop r ctxChanged act au stg was
  end.

(** autoUpdate: Settings.hpp:1036-1152.  None: an exception was thrown by activateContext. *)
Definition autoUpdate (s : st) (now1 now2 : N) (t : tagMap) : option st :=
  if negb (relevant t)
  then Some (if chg s && isEmpty (staged s) then setChg s false else s)
  else
    let prev := actx s in
    let tc := tagContext now1 t in
    let r := match tc with
             | None => Some (s, actx s)
             | Some c => match activate s now2 c with
                         | (_, None) => None
                         | (s1, Some None) => Some (s1, actx s1)
                         | (s1, Some (Some b)) => Some (s1, b)
                         end
             end in
    match r with
    | None => None
    | Some (s1, c) =>
        let changed := negb (ctxEqb prev c) in
        let s2 := match aget (autoU s1) c with
                  | Some _ => s1
                  | None => let sE := setAuto s1 (aput (autoU s1) c []) in
                            setAuto s1 (aput (autoU s1) c (match getBestAuto sE c with Some x => x | None => writ B end))
                  end in
        let au := match aget (autoU s2) c with Some x => x | None => [] end in
        let '(stg, was) := tagLoop (tVals t) changed (active s2) au (staged s2) false in
        let s3 := setStagedMap s2 stg in
        Some (if (match tc with None => true | Some _ => false end) && negb was && isEmpty stg then setChg s3 false
              else if changed || was then setChg s3 true else s3)
    end.

(** getStored, all keys: Settings.cpp:42-60. *)
Definition getStored (s : st) (now : N) (c : ctx) : option pmap := getBest s (timed now c).

(** get(key): Settings.cpp:32-38. *)
Definition get (s : st) (k : N) : option N := pget (active s) k.

(** init: Settings.hpp:911-951. *)
Definition initSettings (s : st) (now1 now2 now3 : N) (ps : pmap) : st * option (option ctx) :=
  match set (storeDefaults s) now1 now2 ps (0, 0) with
  | (s1, None) => (s1, None)
  | (s1, Some _) => activate s1 now3 (0, 0)
  end.

(** Block::init, settings part: Block.hpp:913-932 (forwarded values are staged again). *)
Definition initBlock (s : st) (now1 now2 now3 : N) (ps : pmap) : option st :=
  match initSettings s now1 now2 now3 ps with
  | (s1, Some (Some _)) =>
      let '(s2, _, fw) := applyStaged s1 in
      match (if isEmpty fw then (s2, Some []) else setStaged s2 fw) with
      | (s3, Some _) => Some (storeDefaults s3)
      | (_, None) => None
      end
  | _ => None
  end.

End Settings.

(** settings::nullMatchPred, the predicate of every Block: Settings.hpp:72. *)
Definition nullPred : N -> N -> N -> option bool := fun _ _ _ => None.

(* ------------------------------------------------------------------ the mutex *)

(** Two threads: one stages values (setStaged, under the mutex: Settings.cpp:99-102), the other applies them
    (Block::applyChangedSettings, Block.hpp:1289-1322).  The critical section of applyStagedParameters ends before the
    staged values are cleared (the lock_guard of Settings.hpp:1157 lives until line 1209), so applying has these steps. *)
Inductive astep :=
| AStage (ps : pmap)     (* setStaged, one critical section *)
| ACheck                 (* if (!settings().changed()) return: Block.hpp:1290 *)
| AApply                 (* applyStagedParameters, inside the lock: Settings.hpp:1156-1209 *)
| AClear                 (* _stagedParameters.clear(): Settings.hpp:1210 *)
| AUnset                 (* _changed = false: Settings.hpp:1211 *)
| AUnset2.               (* setChanged(false): Block.hpp:1315 *)

(** State: settings and the place of the applying thread (0: outside, then one per step). *)
Definition astate : Type := (st * N)%type.
Definition arun1 (B : bdesc) (a : astate) (x : astep) : option astate :=
  let '(s, pc) := a in
  match x with
  | AStage ps => match setStaged B s ps with (s1, Some _) => Some (s1, pc) | _ => None end
  | ACheck => if pc =? 0 then Some (s, if chg s then 1 else 0) else None
  | AApply => if pc =? 1
              then let '(f, _, _) := applyLoop B (staged s) (fields s) [] [] in
                   Some (mkS (stored s) (autoU s) (dflt s) (staged s) (pputAll (active s) f) f (actx s) (chg s) (expiry s), 2)
              else None
  | AClear => if pc =? 2 then Some (setStagedMap s [], 3) else None
  | AUnset => if pc =? 3 then Some (setChg s false, 4) else None
  | AUnset2 => if pc =? 4 then Some (setChg s false, 0) else None
  end.

(** A run of the two threads; None if a step is not enabled. *)
Fixpoint arun (B : bdesc) (a : astate) (xs : list astep) : option astate :=
  match xs with
  | [] => Some a
  | x :: r => match arun1 B a x with Some a' => arun B a' r | None => None end
  end.
