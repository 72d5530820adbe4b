(** What the properties of a block's message interface say, apart from how the messages are handled. *)
From Coq Require Import List NArith Bool.
From Verif Require Import LifecycleModel SettModel MsgModel.
Import ListNotations.
Local Open Scope N_scope.

(** The table of commands: which property takes which command. *)
Definition takes (e : endp) (c : cmd) : bool :=
  match e, c with
  | (PHeartbeat | PLife | PSettings | PStaged | PUi), (Get | Set_ | Subscribe | Unsubscribe) => true
  | PMeta, (Get | Subscribe | Unsubscribe) => true
  | (PEcho | PStore | PReset), Set_ => true
  | PActive, (Get | Set_) => true
  | PCtx, (Get | Set_ | Disconnect) => true
  | PContexts, Get => true
  | _, _ => false
  end.

(** A message meant for the block called [name] with the unique name [unique]. *)
Definition meantFor (name unique : N) (m : msg) : Prop := mService m = 0 \/ mService m = unique \/ mService m = name.

(** The reply to [m]: as a Final message of the block, with the request's identifiers and the given body. *)
Definition replyTo (unique : N) (m : msg) (d : body) : msg := mkMsg (mProto m) Final unique (mClient m) (mEnd m) d (mRbac m).

(** [out] holds replies to some of the requests, at most one each, in their order. *)
Inductive Answers (unique : N) : list msg -> list msg -> Prop :=
| ans_nil : Answers unique [] []
| ans_none m ms out : Answers unique ms out -> Answers unique (m :: ms) out
| ans_one m d ms out : Answers unique ms out -> Answers unique (m :: ms) (replyTo unique m d :: out).

(** Handling messages one after the other, replies aside. *)
Definition handleAll B pred fuel hooks (b : blk) (l : list (env * msg)) : blk :=
  fold_left (fun b xm => fst (handle B pred fuel hooks (fst xm) b (snd xm))) l b.

(** Whether client [c] is subscribed to property [e] after the messages [l]: the last word counts. *)
Definition subscribable (e : endp) : bool := takes e Subscribe.
Fixpoint wants (name unique : N) (e : endp) (c : N) (now : bool) (l : list msg) : bool :=
  match l with
  | [] => now
  | m :: r =>
    wants name unique e c
      (if ((mService m =? 0) || (mService m =? unique) || (mService m =? name)) && endEqb (mEnd m) e && (mClient m =? c) && subscribable e && negb (c =? 0)
       then match mCmd m with Subscribe => true | Unsubscribe => false | _ => now end else now) r
  end.

(** A fresh block: nobody is subscribed. *)
Definition fresh (b : blk) : Prop := forall e, bSubs b e = [].

(** Strictly ascending. *)
Fixpoint rising (l : list N) : Prop := match l with [] => True | x :: r => (forall y, In y r -> x < y) /\ rising r end.

(** How many of the messages go to client [c] about property [e]. *)
Definition about (e : endp) (c : N) (l : list msg) : list msg := filter (fun m => endEqb (mEnd m) e && (mClient m =? c) && match mCmd m with Notify => true | _ => false end) l.

(** The parameters in a body. *)
Definition paramsOf (d : body) : pmap := match d with Some l => params l | None => [] end.

(** The name of a context in a request: given as "context", or else as "ctx". *)
Definition namesCtx (d : list (key * val)) (n : N) : Prop := kfind d KContext = Some (VStr n) \/ (kfind d KContext = None /\ kfind d KContextShort = Some (VStr n)).

(** A request to a context: name, what is given as its time, what is given as its parameters. *)
Definition ctxRequest (n : N) (time pars : val) : list (key * val) := [(KContext, VStr n); (KTime, time); (KParameters, pars)].

(** Rounds of message handling with room for [room] replies each, nothing new arriving. *)
Fixpoint rounds B pred fuel hooks (b : blk) (room : nat) (inbox : list msg) (xss : list (list env)) : blk * list msg * list msg :=
  match xss with
  | [] => (b, [], inbox)
  | xs :: r => let '(b1, o1, i1, _) := processPort B pred fuel hooks b room inbox xs in
               let '(b2, o2, i2) := rounds B pred fuel hooks b1 room i1 r in (b2, o1 ++ o2, i2)
  end.

(** A staged value the block will take: the name of a member, a value of its type and within its limits. *)
Definition acceptable (B : bdesc) (k v : N) : bool := has k (writ B) && (holds B k v && valid B k v).
