(** Model of a block's message interface: dispatch of messages to properties, the twelve standard properties, replies,
    subscriptions and notifications.

    Source: /repo/core/src/Block.cpp (callbacks, cited as "cpp"), /repo/core/include/gnuradio-4.0/Block.hpp ("hpp") and
    /repo/core/include/gnuradio-4.0/Message.hpp.

    Simplifications (all definitions of this file):
    - names, client identifiers and the fields protocol and rbac are numbers; the empty string is 0;
    - settings and lifecycle are those of SettModel and LifecycleModel; the readings of the clock, and whether a lifecycle
      method of the user throws, are arguments ([env], one per message);
    - a message body is a list of named values of the kinds that the callbacks look at; parameters of a settings message
      are its entries [KParam];
    - custom properties and the property of exported subgraph ports are not modelled: every other endpoint is unknown;
    - error texts are left out. *)
From Coq Require Import List NArith Arith Bool.
From Verif Require Import Base LifecycleModel SettModel.
Import ListNotations.
Local Open Scope N_scope.

(** Message.hpp:24-36 [Command]. *)
Inductive cmd := Invalid | Get | Set_ | Partial | Final | Ready | Disconnect | Subscribe | Unsubscribe | Notify | Heartbeat.

(** hpp 446-460: the standard properties, cpp 5-20; [POther]: any other endpoint. *)
Inductive endp :=
| PHeartbeat | PEcho | PLife | PSettings | PStaged | PStore | PReset | PActive | PCtx | PContexts | PMeta | PUi | POther (n : N).

(** propertyCallbacks.find: cpp 8-19 register all but [POther]. *)
Definition registered (e : endp) : bool := match e with POther _ => false | _ => true end.

(** The keys the callbacks know; [KParam]: any other key. *)
Inductive key := KParam (k : N) | KState | KContext | KContextShort | KTime | KTimeShort | KParameters | KHeartbeat | KFailed | KContexts | KTimes.

(** Equality of keys (operator== of strings). *)
Definition keyEqb (a b : key) : bool :=
  match a, b with
  | KParam x, KParam y => x =? y
  | KState, KState | KContext, KContext | KContextShort, KContextShort | KTime, KTime | KTimeShort, KTimeShort
  | KParameters, KParameters | KHeartbeat, KHeartbeat | KFailed, KFailed | KContexts, KContexts | KTimes, KTimes => true
  | _, _ => false
  end.

(** Values: a parameter's value, a string (context name), the text of a state, an uint64, a map of parameters, a list of
    names, a list of times. *)
Inductive val := VPar (v : N) | VStr (n : N) | VState (s : lstate) | VU64 (n : N) | VMap (m : pmap) | VKeys (l : list N) | VTimes (l : list N).

(** The body: [None] stands for an error (std::unexpected). *)
Definition body : Type := option (list (key * val)).

(** Message.hpp:53-64 [Message]. *)
Record msg := mkMsg { mProto : N; mCmd : cmd; mService : N; mClient : N; mEnd : endp; mBody : body; mRbac : N }.

(** ValueMap::find. *)
Fixpoint kfind (m : list (key * val)) (k : key) : option val :=
  match m with
  | [] => None
  | (k', v) :: r => if keyEqb k' k then Some v else kfind r k
  end.

(** The parameters of a settings message. *)
Definition params (m : list (key * val)) : pmap := flat_map (fun e => match e with (KParam k, VPar v) => [(k, v)] | _ => [] end) m.

(** A parameter map as a body. *)
Definition asBody (p : pmap) : body := Some (map (fun e => (KParam (fst e), VPar (snd e))) p).

(** The block: name, unique_name, propertySubscriptions (per property the ordered set of clients), lifecycle, settings,
    meta_information, ui_constraints. *)
Record blk := mkBlk { bName : N; bUnique : N; bSubs : endp -> list N; bLife : machine; bSet : st; bMeta : pmap; bUi : pmap }.

(** Assignments to single members. *)
Definition putSubs (b : blk) (x : endp -> list N) : blk := mkBlk (bName b) (bUnique b) x (bLife b) (bSet b) (bMeta b) (bUi b).
Definition putLife (b : blk) (x : machine) : blk := mkBlk (bName b) (bUnique b) (bSubs b) x (bSet b) (bMeta b) (bUi b).
Definition putSet (b : blk) (x : st) : blk := mkBlk (bName b) (bUnique b) (bSubs b) (bLife b) x (bMeta b) (bUi b).

(** Equality of endpoints. *)
Definition endEqb (a b : endp) : bool :=
  match a, b with
  | PHeartbeat, PHeartbeat | PEcho, PEcho | PLife, PLife | PSettings, PSettings | PStaged, PStaged | PStore, PStore
  | PReset, PReset | PActive, PActive | PCtx, PCtx | PContexts, PContexts | PMeta, PMeta | PUi, PUi => true
  | POther x, POther y => x =? y
  | _, _ => false
  end.

(** std::set insert / erase. *)
Fixpoint setIns (c : N) (l : list N) : list N :=
  match l with
  | [] => [c]
  | x :: r => if c =? x then l else if c <? x then c :: l else x :: setIns c r
  end.
Definition setDel (c : N) (l : list N) : list N := filter (fun x => negb (x =? c)) l.

(** Subscribe: cpp 30-34 (the same text in each property that has it): an empty identifier is ignored. *)
Definition subscribe (b : blk) (e : endp) (c : N) : blk :=
  if c =? 0 then b else putSubs b (fun e' => if endEqb e' e then setIns c (bSubs b e) else bSubs b e').

(** Unsubscribe: cpp 35-38. *)
Definition unsubscribe (b : blk) (e : endp) (c : N) : blk :=
  putSubs b (fun e' => if endEqb e' e then setDel c (bSubs b e) else bSubs b e').

(** What a callback does besides changing the block: return nothing, return a message, throw. *)
Inductive ret := RNone | RMsg (m : msg) | RThrow.

(** message.data = ... *)
Definition withBody (m : msg) (x : body) : msg := mkMsg (mProto m) (mCmd m) (mService m) (mClient m) (mEnd m) x (mRbac m).

(** The readings of the clock during one message, and whether the user's lifecycle method throws. *)
Record env := mkEnv { t1 : N; t2 : N; t3 : N; thrown : bool }.

Section Block.
Variable B : bdesc.
Variable pred : N -> N -> N -> option bool.
Variable fuel : nat.
Variable hooks : hooks_present.

(** cpp 22-41. *)
Definition cbHeartbeat (x : env) (b : blk) (m : msg) : blk * ret :=
  match mCmd m with
  | Set_ | Get => (b, RMsg (withBody m (Some [(KHeartbeat, VU64 (t1 x))])))
  | Subscribe => (subscribe b PHeartbeat (mClient m), RNone)
  | Unsubscribe => (unsubscribe b PHeartbeat (mClient m), RNone)
  | _ => (b, RThrow)
  end.

(** cpp 43-52. *)
Definition cbEcho (b : blk) (m : msg) : blk * ret := match mCmd m with Set_ => (b, RMsg m) | _ => (b, RThrow) end.

(** cpp 54-105. *)
Definition cbLife (x : env) (b : blk) (m : msg) : blk * ret :=
  match mCmd m with
  | Set_ => match mBody m with
            | None => (b, RThrow)
            | Some d => match kfind d KState with
                        | Some (VState s) => match changeStateTo hooks (bLife b) s (thrown x) with
                                             | (l, Ok) => (putLife b l, RNone)
                                             | (l, _) => (putLife b l, RThrow)
                                             end
                        | _ => (b, RThrow)
                        end
            end
  | Get => (b, RMsg (withBody m (Some [(KState, VState (m_state (bLife b)))])))
  | Subscribe => (subscribe b PLife (mClient m), RNone)
  | Unsubscribe => (unsubscribe b PLife (mClient m), RNone)
  | _ => (b, RThrow)
  end.

(** cpp 135-181 [propertyCallbackStagedSettings]; [Final] of 159 is set again at hpp 2229. *)
Definition cbStaged (b : blk) (m : msg) : blk * ret :=
  match mCmd m with
  | Set_ => match mBody m with
            | None => (b, RThrow)
            | Some d => match setStaged B (bSet b) (params d) with
                        | (s, None) => (putSet b s, RThrow)
                        | (s, Some []) => (putSet b s, if mClient m =? 0 then RNone else RMsg (withBody m (asBody (staged s))))
                        | (s, Some _) => (putSet b s, RThrow)
                        end
            end
  | Get => (b, RMsg (withBody m (asBody (staged (bSet b)))))
  | Subscribe => (subscribe b PStaged (mClient m), RNone)
  | Unsubscribe => (unsubscribe b PStaged (mClient m), RNone)
  | _ => (b, RThrow)
  end.

(** The answer of the delegated call is dropped, its exception is not: cpp 117-118, 428-429. *)
Definition dropAnswer (r : blk * ret) : blk * ret := match r with (b, RThrow) => (b, RThrow) | (b, _) => (b, RNone) end.

(** cpp 107-133. *)
Definition cbSettings (b : blk) (m : msg) : blk * ret :=
  match mCmd m with
  | Set_ => dropAnswer (cbStaged b m)
  | Get => (b, RMsg (withBody m (asBody (active (bSet b)))))
  | Subscribe => (subscribe b PSettings (mClient m), RNone)
  | Unsubscribe => (unsubscribe b PSettings (mClient m), RNone)
  | _ => (b, RThrow)
  end.

(** cpp 183-193, 195-205. *)
Definition cbStore (b : blk) (m : msg) : blk * ret := match mCmd m with Set_ => (putSet b (storeDefaults (bSet b)), RNone) | _ => (b, RThrow) end.
Definition cbReset (x : env) (b : blk) (m : msg) : blk * ret :=
  match mCmd m with Set_ => (putSet b (resetDefaults B pred fuel (bSet b) (t1 x) (t2 x) (t3 x)), RNone) | _ => (b, RThrow) end.

(** The context named by a body: cpp 218-235, 282-299 (None: an exception). *)
Definition ctxName (d : list (key * val)) : option N :=
  match kfind d KContext with
  | Some (VStr n) => Some n
  | Some _ => None
  | None => match kfind d KContextShort with Some (VStr n) => Some n | _ => None end
  end.

(** Its time: cpp 237-248, 301-312; a value that is not an uint64 is passed over. *)
Definition ctxTime (d : list (key * val)) : N :=
  match kfind d KTime with
  | Some (VU64 t) => t
  | Some _ => 0
  | None => match kfind d KTimeShort with Some (VU64 t) => t | _ => 0 end
  end.

(** The active context as a body: cpp 261-265. *)
Definition activeBody (b : blk) : body := Some [(KContext, VStr (snd (actx (bSet b)))); (KTime, VU64 (fst (actx (bSet b))))].

(** cpp 207-270. *)
Definition cbActive (x : env) (b : blk) (m : msg) : blk * ret :=
  match mCmd m with
  | Set_ => match mBody m with
            | None => (b, RThrow)
            | Some d => match ctxName d with
                        | None => (b, RThrow)
                        | Some n => match activate B pred fuel (bSet b) (t1 x) (ctxTime d, n) with
                                    | (s, Some (Some _)) => (putSet b s, RMsg (withBody m (activeBody (putSet b s))))
                                    | (s, _) => (putSet b s, RThrow)
                                    end
                        end
            end
  | Get => (b, RMsg (withBody m (activeBody b)))
  | _ => (b, RThrow)
  end.

(** The listed entries of a map (project, Settings.cpp:57-59); all of them if none is listed. *)
Definition project (l : list N) (m : pmap) : pmap := match l with [] => m | _ => filter (fun e => has (fst e) l) m end.

(** cpp 272-367. *)
Definition cbCtx (x : env) (b : blk) (m : msg) : blk * ret :=
  match mBody m with
  | None => (b, RThrow)
  | Some d =>
    match ctxName d with
    | None => (b, RThrow)
    | Some n =>
      let c := (ctxTime d, n) in
      match mCmd m with
      | Get => let l := match kfind d KParameters with Some (VKeys l) => l | _ => [] end in
               let p := match getStored pred fuel (bSet b) (t1 x) c with Some p => project l p | None => [] end in
               (b, RMsg (withBody m (Some [(KParameters, VMap p)])))
      | Set_ => let p := match kfind d KParameters with Some (VMap p) => p | _ => [] end in
                match SettModel.set B pred fuel (bSet b) (t1 x) (t2 x) p c with
                | (s, Some r) => (putSet b s, RMsg (withBody m (Some [(KFailed, VMap r)])))
                | (s, None) => (putSet b s, RThrow)
                end
      | Disconnect => if n =? 0 then (b, RThrow)
                      else match removeContext B pred fuel (bSet b) (t1 x) (t2 x) c with
                           | (s, true) => (putSet b s, RMsg m)
                           | (s, false) => (putSet b s, RThrow)
                           end
      | _ => (b, RThrow)
      end
    end
  end.

(** cpp 369-393: names and times of all stored contexts. *)
Definition contextsBody (b : blk) : body :=
  let l := flat_map (fun e => map (fun x => (fst e, fst x)) (snd e)) (stored (bSet b)) in
  Some [(KContexts, VKeys (map fst l)); (KTimes, VTimes (map snd l))].
Definition cbContexts (b : blk) (m : msg) : blk * ret := match mCmd m with Get => (b, RMsg (withBody m (contextsBody b))) | _ => (b, RThrow) end.

(** cpp 395-416. *)
Definition cbMeta (b : blk) (m : msg) : blk * ret :=
  match mCmd m with
  | Get => (b, RMsg (withBody m (asBody (bMeta b))))
  | Subscribe => (subscribe b PMeta (mClient m), RNone)
  | Unsubscribe => (unsubscribe b PMeta (mClient m), RNone)
  | _ => (b, RThrow)
  end.

(** cpp 418-444. *)
Definition cbUi (b : blk) (m : msg) : blk * ret :=
  match mCmd m with
  | Set_ => dropAnswer (cbStaged b m)
  | Get => (b, RMsg (withBody m (asBody (bUi b))))
  | Subscribe => (subscribe b PUi (mClient m), RNone)
  | Unsubscribe => (unsubscribe b PUi (mClient m), RNone)
  | _ => (b, RThrow)
  end.

(** hpp 2200-2209: the callback of the endpoint. *)
Definition callback (x : env) (b : blk) (m : msg) : blk * ret :=
  match mEnd m with
  | PHeartbeat => cbHeartbeat x b m
  | PEcho => cbEcho b m
  | PLife => cbLife x b m
  | PSettings => cbSettings b m
  | PStaged => cbStaged b m
  | PStore => cbStore b m
  | PReset => cbReset x b m
  | PActive => cbActive x b m
  | PCtx => cbCtx x b m
  | PContexts => cbContexts b m
  | PMeta => cbMeta b m
  | PUi => cbUi b m
  | POther _ => (b, RNone)
  end.

(** hpp 2195-2198. *)
Definition addressed (b : blk) (m : msg) : bool := (mService m =? 0) || (mService m =? bUnique b) || (mService m =? bName b).

(** hpp 2229-2230: the reply as it is sent. *)
Definition reply (b : blk) (m : msg) : msg := mkMsg (mProto m) Final (bUnique b) (mClient m) (mEnd m) (mBody m) (mRbac m).

(** hpp 2194-2230: one message; the reply, if any. *)
Definition handle (x : env) (b : blk) (m : msg) : blk * option msg :=
  if negb (addressed b m) || negb (registered (mEnd m)) then (b, None)
  else match callback x b m with
       | (b', RNone) => (b', None)
       | (b', RMsg r) => (b', Some (reply b' r))
       | (b', RThrow) => (b', Some (reply b' (withBody m None)))
       end.

(** hpp 2190-2240 [processMessages]: the output port is connected and takes [room] more messages.  A reply without room
    ends it by an exception (false). *)
Fixpoint process (b : blk) (room : nat) (l : list (env * msg)) : blk * list msg * bool :=
  match l with
  | [] => (b, [], true)
  | (x, m) :: r =>
    match handle x b m with
    | (b', None) => process b' room r
    | (b', Some a) =>
      match room with
      | O => (b', [], false)
      | S k => let '(b2, out, ok) := process b' k r in (b2, a :: out, ok)
      end
    end
  end.

(** hpp 1437-1457: the messages waiting at the input are handled and then consumed; after an exception the reader's span
    gives them back (CircularBuffer.hpp:661-680, ProcessNone).  The clock is read anew: [xs] for this call. *)
Definition processPort (b : blk) (room : nat) (inbox : list msg) (xs : list env) : blk * list msg * list msg * bool :=
  let '(b', out, ok) := process b room (combine xs inbox) in
  (b', out, if ok then [] else inbox, ok).

(** hpp 1795-1804 [notifyListeners], [emitMessage]: one message per subscribed client, in the order of the set. *)
Definition notifyAll (b : blk) (e : endp) (d : body) : list msg := map (fun c => mkMsg 0 Notify (bUnique b) c e d 0) (bSubs b e).

(** hpp 1289-1322 [applyChangedSettings]: staged settings are applied, listeners told. *)
Definition applySettings (b : blk) : blk * list msg :=
  if chg (bSet b)
  then let '(s, ap, _) := applyStaged B (bSet b) in
       let b' := putSet b s in
       (b', (match ap with [] => [] | _ => notifyAll b' PStaged (asBody ap) end) ++ notifyAll b' PSettings (asBody (active s)))
  else (b, []).

(** hpp 1426-1433: the heartbeat of one round. *)
Definition beat (b : blk) (now : N) : list msg := notifyAll b PHeartbeat (Some [(KHeartbeat, VU64 now)]).

(** What happens to a block: a round of message handling, application of its settings, a state change from outside. *)
Inductive act := AMsgs (now room : N) (inbox : list msg) (xs : list env) | AApply | AState (s : lstate) (t : bool).

(** One of them: the block and what it sends (hpp 1426-1459, 1289-1322; LifeCycle.hpp:217-274). *)
Definition actStep (b : blk) (a : act) : blk * list msg :=
  match a with
  | AMsgs now room inbox xs => let '(b', out, _, _) := processPort b (N.to_nat room) inbox xs in (b', beat b now ++ out)
  | AApply => applySettings b
  | AState s t => (putLife b (fst (changeStateTo hooks (bLife b) s t)), [])
  end.

(** A history: everything sent. *)
Fixpoint actRun (b : blk) (l : list act) : blk * list msg :=
  match l with
  | [] => (b, [])
  | a :: r => let (b1, o1) := actStep b a in let (b2, o2) := actRun b1 r in (b2, o1 ++ o2)
  end.

End Block.
