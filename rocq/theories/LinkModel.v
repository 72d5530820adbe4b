(** Model of how the edges of a graph become connections between ports: which buffer each port writes to or reads from,
    how large it is, and what the graph records of it.
    core/include/gnuradio-4.0/Graph.hpp:491-557, 698-880, Port.hpp:766-1052, 1257-1278, BlockModel.hpp:74-159.
    Ports are numbers (the physical port); buffers are numbers in the order of their making.  A stream buffer and the tag
    buffer beside it are made and replaced together and are one buffer here. *)
From Coq Require Import ZArith NArith Bool Arith String List.
From Verif Require Import Base TopoModel EditModel.
Import ListNotations.
Local Open Scope nat_scope.
Local Open Scope list_scope.

(** What the ports are and what the system grants: the value type of a port (Port.hpp:1280 [typeName], 1266 the same as
    [metaInfo.data_type]), its kind (1261-1265 stream or message), whether a buffer of a size can be made (Port.hpp:945-952
    an exception otherwise), and the size it then has (the rounding of CircularBuffer.hpp). *)
Record Env := mkEnv { tyOf : nat -> nat; kindOf : nat -> nat; canAlloc : N -> bool; capOf : N -> N }.

(** The handlers of all ports: Port.hpp:760 [_ioHandler] of outputs and of inputs, as the number of the buffer; a port that
    is not in the list has its own placeholder of size zero (Port.hpp:766-782).  [nsize]: the sizes of the buffers made. *)
Record Net := mkNet { nout : list (nat * nat); nin : list (nat * nat); nsize : list N }.

(** Lookup and overwriting of a handler. *)
Fixpoint lookupP (p : nat) (l : list (nat * nat)) : option nat :=
  match l with [] => None | (q, b) :: r => if Nat.eqb q p then Some b else lookupP p r end.
Definition dropP (p : nat) (l : list (nat * nat)) : list (nat * nat) := filter (fun x => negb (Nat.eqb (fst x) p)) l. (** back to the placeholder *)
Definition putP (p b : nat) (l : list (nat * nat)) : list (nat * nat) := (p, b) :: dropP p l. (** assignment of a handler *)

(** CircularBuffer.hpp [size()] of a buffer. *)
Definition sizeOf (n : Net) (b : nat) : N := nth b (nsize n) 0%N.

(** Port.hpp:895 [bufferSize] of an output. *)
Definition outSize (n : Net) (p : nat) : N := match lookupP p (nout n) with Some b => sizeOf n b | None => 0%N end.

(** A new buffer for an output: the assignment to [_ioHandler] at Port.hpp:812, 931-935. *)
Definition newOut (env : Env) (p : nat) (size : N) (n : Net) : Net :=
  mkNet (putP p (List.length (nsize n)) (nout n)) (nin n) (nsize n ++ [capOf env size]).

(** Port.hpp:925-957 [resizeBuffer] of an output.  A failing allocation leaves the port as it was (the case that only the
    tag buffer fails is left out). *)
Definition resizeBuffer (env : Env) (p : nat) (size : N) (n : Net) : Net * bool :=
  if canAlloc env size then (newOut env p size n, true) else (n, false).

(** Port.hpp:555. *)
Definition kDefaultBufferSize : N := 4096.

(** Port.hpp:803-826 [materialiseDefaultBuffer]. *)
Definition materialise (env : Env) (p : nat) (n : Net) : Net :=
  if N.eqb (outSize n p) 0 then newOut env p kDefaultBufferSize n else n.

(** Port.hpp:1260-1278 [connect] of an output with an input; 828-853, 969-977: the input becomes a reader of the buffer the
    output has. *)
Definition connectPorts (env : Env) (p q : nat) (n : Net) : Net * bool :=
  if negb (Nat.eqb (kindOf env p) (kindOf env q)) then (n, false)
  else if negb (Nat.eqb (tyOf env p) (tyOf env q)) then (n, false)
  else let n1 := materialise env p n in
       match lookupP p (nout n1) with
       | Some b => (mkNet (nout n1) (putP q b (nin n1)) (nsize n1), true)
       | None => (n1, false)
       end.

(** Port.hpp:855-861 [isConnected]: an output whose buffer has a reader, an input whose buffer has a writer. *)
Definition outConnected (n : Net) (p : nat) : bool :=
  match lookupP p (nout n) with Some b => existsb (fun x => Nat.eqb (snd x) b) (nin n) | None => false end.
Definition inConnected (n : Net) (q : nat) : bool := (** the same for an input *)
  match lookupP q (nin n) with Some b => existsb (fun x => Nat.eqb (snd x) b) (nout n) | None => false end.

(** Port.hpp:1034-1041 [disconnect] of an input and of an output; [None]: the error "port not connected". *)
Definition disconnectIn (q : nat) (n : Net) : option Net :=
  if inConnected n q then Some (mkNet (nout n) (dropP q (nin n)) (nsize n)) else None.
Definition disconnectOut (p : nat) (n : Net) : option Net := (** Port.hpp:1034-1041 *)
  if outConnected n p then Some (mkNet (dropP p (nout n)) (nin n) (nsize n)) else None.

(** An edge with the fields set while connecting: BlockModel.hpp:83-86 [_actualBufferSize], [_sourcePort]. *)
Record LEdge := mkLEdge { le : GEdge; lsize : option N; lptr : option nat }.

Definition setState (s : EdgeState) (e : GEdge) : GEdge := (** Graph.hpp: assignment to [_state] *)
  mkGEdge (gsrc e) (gsrcPort e) (gdst e) (gdstPort e) (gmin e) (gweight e) (gename e) (gextra e) s.

Definition withState (s : EdgeState) (e : LEdge) : LEdge := mkLEdge (setState s (le e)) (lsize e) (lptr e). (** the same *)

Definition isConn (e : LEdge) : bool := match gstate (le e) with Connected => true | _ => false end. (** Graph.hpp:763 test *)
Definition isWaiting (e : LEdge) : bool := match gstate (le e) with Waiting => true | _ => false end. (** Graph.hpp:843 test *)

(** Graph.hpp:699-700: the ports of an edge.  The edge holds its blocks; here they are looked up in the graph. *)
Definition srcOf (bs : list GBlock) (e : GEdge) : option nat :=
  match findB (gsrc e) bs with Some b => resolve (gouts b) (gsrcPort e) | None => None end.
Definition dstOf (bs : list GBlock) (e : GEdge) : option nat := (** Graph.hpp:700 *)
  match findB (gdst e) bs with Some b => resolve (gins b) (gdstPort e) | None => None end.

(** BlockModel.hpp:152 [hasSameSourcePort]. *)
Definition sameSource (a b : GEdge) : bool := Nat.eqb (gsrc a) (gsrc b) && portEq (gsrcPort a) (gsrcPort b).

(** Graph.hpp:797 [forEachEdge<All>]: the edges of groups inside, over all levels. *)
Fixpoint edgesInside (b : GBlock) : list GEdge :=
  match b with GB _ _ _ _ g kids es _ _ => if g then es ++ flat_map edgesInside kids else [] end.

(** Graph.hpp:784-807 [calculateStreamBufferSize].  The first loop (an already connected edge) is never taken, as the only
    call is made when there is none. *)
Definition wantedSize (bs : list GBlock) (es : list LEdge) (ref : GEdge) : N :=
  fold_left (fun m e => if sameSource ref e then match gmin e with Some k => N.max m k | None => m end else m)
    (map le es ++ flat_map edgesInside bs) 0%N.

(** Graph.hpp:698-782 [applyEdgeConnection]; [es] is the whole list of edges.  The choice of memory resources and the compute
    domain are left out. *)
Definition applyEdge (env : Env) (bs : list GBlock) (es : list LEdge) (e : LEdge) (n : Net) : LEdge * Net :=
  match srcOf bs (le e), dstOf bs (le e) with
  | Some p, Some q =>
      if negb (Nat.eqb (tyOf env p) (tyOf env q)) then (withState IncompatiblePorts e, n)
      else
        let '(n1, ok1) := if existsb (fun x => sameSource (le e) (le x) && isConn x) es then (n, true)
                          else resizeBuffer env p (wantedSize bs es (le e)) n in
        let '(n2, ok2) := connectPorts env p q n1 in
        (mkLEdge (setState (if ok2 && ok1 then Connected else ErrorConnecting) (le e)) (Some (outSize n2 p)) (Some p), n2)
  | _, _ => (withState PortNotFound e, n)
  end.

(** Graph.hpp:841-851 the first loop of [connectPendingEdges]; [pre]: the edges already visited. *)
Fixpoint connectLoop (env : Env) (bs : list GBlock) (pre rest : list LEdge) (n : Net) (ok : bool) : list LEdge * Net * bool :=
  match rest with
  | [] => (pre, n, ok)
  | e :: r =>
      if isWaiting e
      then let '(e', n') := applyEdge env bs (pre ++ e :: r) e n in connectLoop env bs (pre ++ [e']) r n' (ok && isConn e')
      else connectLoop env bs (pre ++ [e]) r n ok
  end.

(** The physical ports behind a list of dynamic ports. *)
Definition physOf (p : DPort) : list nat := match p with One _ i => [i] | Many _ l => l end.

(** Graph.hpp:840-876 [connectPendingEdges]. *)
Definition connectPending (env : Env) (bs : list GBlock) (es : list LEdge) (n : Net) : list LEdge * Net * bool :=
  let '(es', n', ok) := connectLoop env bs [] es n true in
  (es', fold_left (fun m p => materialise env p m) (flat_map (fun b => flat_map physOf (gouts b)) bs) n', ok).

(** Graph.hpp:809-833 [disconnectAllEdges], one edge. *)
Definition disconnectOne (bs : list GBlock) (e : LEdge) (n : Net) : LEdge * Net :=
  if isConn e
  then match dstOf bs (le e) with
       | None => (withState PortNotFound e, n)
       | Some q => (withState Waiting e, match disconnectIn q n with Some n' => n' | None => n end)
       end
  else (withState Waiting e, n).

(** Graph.hpp:809-833 [disconnectAllEdges]. *)
Fixpoint disconnectAll (bs : list GBlock) (es : list LEdge) (n : Net) : list LEdge * Net :=
  match es with
  | [] => ([], n)
  | e :: r => let '(e', n') := disconnectOne bs e n in let '(r', n'') := disconnectAll bs r n' in (e' :: r', n'')
  end.

(** Graph.hpp:835-838 [reconnectAllEdges]. *)
Definition reconnectAll (env : Env) (bs : list GBlock) (es : list LEdge) (n : Net) : list LEdge * Net * bool :=
  let '(es', n') := disconnectAll bs es n in connectPending env bs es' n'.

Definition freshL (e : GEdge) : LEdge := mkLEdge e None None. (** BlockModel.hpp:84, 86: the fields of a new edge *)

(** Graph.hpp:491-527 [emplaceEdge]; [arith] as in [connectEdge]; [None]: an error, nothing changed. *)
Definition emplaceEdge (env : Env) (arith : nat -> bool) (bs : list GBlock) (s : nat) (sp : string) (d : nat) (dp : string)
    (mn : option N) (w : Z) (nm : string) (es : list LEdge) (n : Net) : option (list LEdge * Net) :=
  match findB s bs, findB d bs with
  | Some sb, Some db =>
      match resolve (gouts sb) (Named sp), resolve (gins db) (Named dp) with
      | Some p, Some q =>
          if negb (Nat.eqb (tyOf env p) (tyOf env q)) then None
          else match connectPorts env p q n with
               | (n', true) => Some (es ++ [freshL (connectEdge arith bs s (Named sp) d (Named dp) mn w nm)], n')
               | (_, false) => None
               end
      | _, _ => None
      end
  | _, _ => None
  end.

(** Graph.hpp:529-557 [removeEdgeBySourcePort]; [None]: an error, nothing changed. *)
Definition removeBySource (bs : list GBlock) (s : nat) (sp : string) (es : list LEdge) (n : Net) : option (list LEdge * Net) :=
  match findB s bs with
  | None => None
  | Some sb =>
      match resolve (gouts sb) (Named sp) with
      | None => None
      | Some p =>
          match disconnectOut p n with
          | None => None
          | Some n' =>
              Some (filter (fun e => negb (Nat.eqb (gsrc (le e)) s &&
                      (match lptr e with Some r => Nat.eqb r p | None => false end || portEq (gsrcPort (le e)) (Named sp)))) es, n')
          end
      end
  end.

(** What a user does to the wiring of a graph with fixed blocks, each as a step; a failing call changes nothing. *)
Inductive LinkOp :=
| OpConnect (s : nat) (sp : PortDef) (d : nat) (dp : PortDef) (mn : option N) (** Graph.hpp:563-580 *)
| OpEmplace (s : nat) (sp : string) (d : nat) (dp : string) (mn : option N) (** Graph.hpp:491 *)
| OpRemove (s : nat) (sp : string) (** Graph.hpp:529 *)
| OpPending (** Graph.hpp:840 *)
| OpDisconnect (** Graph.hpp:809 *)
| OpReconnect. (** Graph.hpp:835 *)

(** The effect of a step. *)
Definition linkStep (env : Env) (arith : nat -> bool) (bs : list GBlock) (o : LinkOp) (es : list LEdge) (n : Net) : list LEdge * Net :=
  match o with
  | OpConnect s sp d dp mn => (es ++ [freshL (connectEdge arith bs s sp d dp mn 0 "")], n)
  | OpEmplace s sp d dp mn => match emplaceEdge env arith bs s sp d dp mn 0 "" es n with Some r => r | None => (es, n) end
  | OpRemove s sp => match removeBySource bs s sp es n with Some r => r | None => (es, n) end
  | OpPending => fst (connectPending env bs es n)
  | OpDisconnect => disconnectAll bs es n
  | OpReconnect => fst (reconnectAll env bs es n)
  end.
