(** Model of how a scheduler connects the edges of its graph and of the transparent groups in it, and primes the
    feedback loops.

    Sources: core/include/gnuradio-4.0/Scheduler.hpp (lines 682-718, 765-771, 1049-1056),
    core/include/gnuradio-4.0/Graph.hpp (lines 698-782, 809-851, 1224-1235),
    core/include/gnuradio-4.0/Block.hpp (lines 329-413).

    Whether an edge can be connected (ports found, same type, buffer resized) is a parameter, and so is what the blocks
    report about themselves and the iteration order of the adjacency list.  A port is named by the port definition the
    edge carries.  Buffers are taken to have room for the priming samples. *)
From Coq Require Import Ascii String ZArith NArith Bool Arith List.
From Verif Require Import Base TopoModel.
Import ListNotations.
Local Open Scope nat_scope.

(** Edge states (BlockModel.hpp:76): [tried] lists the edges no longer waiting, [live] those connected.  [primed] lists
    the successful calls of [primePort] since the edges were last disconnected, [complaints] counts error messages. *)
Record PrimeSt := mkPrime { tried : list Edge; live : list Edge; primed : list (Edge * Z); complaints : nat }.

(** Equality of edges as objects: the same entry of the same graph. *)
Definition sameEdge (a b : Edge) : bool := edgeEq a b.

(** Graph.hpp:840-851 [Graph::connectPendingEdges]: every waiting edge is tried; the result is whether all of those could
    be connected. *)
Definition connectEdges (ok : Edge -> bool) (es : list Edge) (s : PrimeSt) : PrimeSt * bool :=
  let pending := filter (fun e => negb (existsb (sameEdge e) (tried s))) es in
  (mkPrime (tried s ++ pending) (live s ++ filter ok pending) (primed s) (complaints s), forallb ok pending).

(** Block.hpp:354: [port.isConnected()] for the input port an edge leads to. *)
Definition inputConnected (s : PrimeSt) (e : Edge) : bool :=
  existsb (fun x => Nat.eqb (dst x) (dst e) && portEq (dstPort x) (dstPort e)) (live s).

(** Block.hpp:329-413 [primePort] as called from Graph.hpp:1224-1235 [primeLoop]: refused for a running block, a port that
    is not connected; nothing to do for no samples. *)
Definition primeOne (running : bool) (info : nat -> BlockInfo) (s : PrimeSt) (loop : list Edge) : PrimeSt :=
  let complain := mkPrime (tried s) (live s) (primed s) (S (complaints s)) in
  match calculateLoopPrimingSize info loop, rev loop with
  | None, _ => complain
  | Some _, [] => complain
  | Some n, e :: _ =>
      if running then complain
      else if Z.eqb n 0 then s
      else if inputConnected s e then mkPrime (tried s) (live s) (primed s ++ [(e, n)]) (complaints s)
      else complain
  end.

(** Scheduler.hpp:693-704: [primeFeedbackPorts] on a flattened graph. *)
Definition primeLoops (running : bool) (info : nat -> BlockInfo) (adjOf : list Edge -> AdjList) (g : Graph) (s : PrimeSt) : PrimeSt :=
  let f := flatten TransparentBlockGroup g in
  fold_left (primeOne running info) (detectFeedbackLoops (adjOf (edges f)) f) s.

(** Scheduler.hpp:708-716: one transparent group; [result && ..] skips the connecting once anything has failed. *)
Definition connectGroup (running : bool) (ok : Edge -> bool) (info : nat -> BlockInfo) (adjOf : list Edge -> AdjList)
    (st : PrimeSt * bool) (b : Block) : PrimeSt * bool :=
  let '(s, result) := st in
  if catEq (bcat b) TransparentBlockGroup then
    let '(s1, r1) := if result then connectEdges ok (binner b) s else (s, false) in
    (primeLoops running info adjOf (mkGraph (bchildren b) (binner b)) s1, r1)
  else st.

(** Scheduler.hpp:692-718 [connectPendingEdges]. *)
Definition schedulerConnect (running : bool) (ok : Edge -> bool) (info : nat -> BlockInfo) (adjOf : list Edge -> AdjList)
    (g : Graph) (s : PrimeSt) : PrimeSt * bool :=
  let '(s0, r0) := connectEdges ok (edges g) s in
  fold_left (connectGroup running ok info adjOf) (forEachBlock TransparentBlockGroup g)
            (primeLoops running info adjOf g s0, r0).

(** Scheduler.hpp:765-771 [start]: [disconnectAllEdges] (682-690, Graph.hpp:809-834) puts every edge back to waiting and
    gives the input ports fresh buffers, then everything is connected. *)
Definition schedulerStart (ok : Edge -> bool) (info : nat -> BlockInfo) (adjOf : list Edge -> AdjList) (g : Graph) : PrimeSt * bool :=
  schedulerConnect false ok info adjOf g (mkPrime [] [] [] 0).

(** Scheduler.hpp:1049-1056 [resume]: connects what is pending while the blocks are still paused. *)
Definition schedulerResume (ok : Edge -> bool) (info : nat -> BlockInfo) (adjOf : list Edge -> AdjList) (g : Graph) (s : PrimeSt) : PrimeSt :=
  fst (schedulerConnect false ok info adjOf g s).

(** Block.hpp:376-380: the samples are published into the buffer the input port reads from, which belongs to the
    output port at the other end; every edge from that output port delivers them. *)
Definition receives (s : PrimeSt) (x : Edge) : Z :=
  fold_right Z.add 0%Z
    (map snd (filter (fun p => existsb (edgeEq x) (live s) && Nat.eqb (src (fst p)) (src x) && portEq (srcPort (fst p)) (srcPort x)) (primed s))).
