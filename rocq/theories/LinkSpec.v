(** What a connected edge means, independently of how connections are made. *)
From Coq Require Import ZArith NArith Bool Arith String List.
From Verif Require Import Base TopoModel EditModel EditSpec LinkModel.
Import ListNotations.
Local Open Scope nat_scope.
Local Open Scope list_scope.

(** Samples written to output [p] now are seen by input [q]: both are on the same buffer, and it can hold something. *)
Definition flows (n : Net) (p q : nat) : Prop :=
  exists b, lookupP p (nout n) = Some b /\ lookupP q (nin n) = Some b /\ (0 < sizeOf n b)%N.

(** The ends of an edge exist and samples go from the one to the other. *)
Definition carries (bs : list GBlock) (n : Net) (e : GEdge) : Prop :=
  exists p q, outEnd bs (gsrc e) (gsrcPort e) = Some p /\ inEnd bs (gdst e) (gdstPort e) = Some q /\ flows n p q.

(** Every edge that the graph reports as connected carries samples. *)
Definition truthful (bs : list GBlock) (es : list LEdge) (n : Net) : Prop :=
  forall e, In e es -> gstate (le e) = Connected -> carries bs n (le e).

(** A port is written in one way only in all edges that start at it. *)
Definition oneSpelling (bs : list GBlock) (es : list LEdge) : Prop :=
  forall e f p, In e es -> In f es -> outEnd bs (gsrc (le e)) (gsrcPort (le e)) = Some p -> outEnd bs (gsrc (le f)) (gsrcPort (le f)) = Some p ->
    gsrc (le e) = gsrc (le f) /\ gsrcPort (le e) = gsrcPort (le f).

(** No input is fed by two edges. *)
Definition oneFeeder (bs : list GBlock) (es : list LEdge) : Prop :=
  ForallOrdPairs (fun e f => forall q, inEnd bs (gdst (le e)) (gdstPort (le e)) = Some q -> inEnd bs (gdst (le f)) (gdstPort (le f)) = Some q -> False) es.

Definition plainWiring (bs : list GBlock) (es : list LEdge) : Prop := oneSpelling bs es /\ oneFeeder bs es. (** both *)

(** Two blocks of a graph share no output port. *)
Definition ownPorts (bs : list GBlock) : Prop := forall i j d d' p, outEnd bs i d = Some p -> outEnd bs j d' = Some p -> i = j.

(** Buffers are at least as large as asked for. *)
Definition roomy (env : Env) : Prop := forall k, (k <= capOf env k)%N.

(** An edge that can be connected: its ends exist and are alike. *)
Definition matching (env : Env) (bs : list GBlock) (e : GEdge) : Prop :=
  exists p q, outEnd bs (gsrc e) (gsrcPort e) = Some p /\ inEnd bs (gdst e) (gdstPort e) = Some q /\ tyOf env p = tyOf env q /\ kindOf env p = kindOf env q.

(** The handlers are those of ports: no dangling buffer numbers, and an edge marked connected has noted its source. *)
Record sane (bs : list GBlock) (es : list LEdge) (n : Net) : Prop := {
  sn_out : forall p b, lookupP p (nout n) = Some b -> b < List.length (nsize n);
  sn_in : forall q b, lookupP q (nin n) = Some b -> b < List.length (nsize n);
  sn_ptr : forall e, In e es -> gstate (le e) = Connected -> lptr e = outEnd bs (gsrc (le e)) (gsrcPort (le e)) }.

(** A sequence of steps, and that the wiring is plain at every moment of it. *)
Fixpoint linkRun (env : Env) (arith : nat -> bool) (bs : list GBlock) (ops : list LinkOp) (es : list LEdge) (n : Net) : list LEdge * Net :=
  match ops with [] => (es, n) | o :: r => let '(es', n') := linkStep env arith bs o es n in linkRun env arith bs r es' n' end.

Fixpoint plainAlong (env : Env) (arith : nat -> bool) (bs : list GBlock) (ops : list LinkOp) (es : list LEdge) (n : Net) : Prop :=
  plainWiring bs es /\
  match ops with [] => True | o :: r => let '(es', n') := linkStep env arith bs o es n in plainAlong env arith bs r es' n' end.

Definition noLinks : Net := mkNet [] [] []. (** all ports as constructed *)
