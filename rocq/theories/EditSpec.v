(** What editing a graph should do, said without the model's own steps. *)
From Coq Require Import Ascii ZArith NArith Bool Arith Permutation String List.
From Verif Require Import Base TopoModel EditModel.
Import ListNotations.
Local Open Scope nat_scope.
Local Open Scope list_scope.

(** No ['#'] in a text. *)
Definition hashFree (s : string) : Prop := ~ In "#"%char (list_ascii_of_string s).

(** Ports as blocks declare them: names differ and contain no ['#']; the number of ports of a collection is a [size_t]. *)
Definition plainPorts (ps : list DPort) : Prop :=
  NoDup (map dportName ps) /\ Forall hashFree (map dportName ps) /\
  forall n l, In (Many n l) ps -> (N.of_nat (List.length l) < 2 ^ 64)%N.

(** The port a definition means: the n-th one, the m-th of the n-th collection, the one of that name, the m-th of the
    collection of that name. *)
Inductive Means (ps : list DPort) : PortDef -> nat -> Prop :=
| means_index t n p : nth_error ps (N.to_nat t) = Some (One n p) -> Means ps (Idx t None) p
| means_sub t s n l p : nth_error ps (N.to_nat t) = Some (Many n l) -> nth_error l (N.to_nat s) = Some p -> Means ps (Idx t (Some s)) p
| means_name n p : In (One n p) ps -> Means ps (Named n) p
| means_element n s l p : In (Many n l) ps -> nth_error l (N.to_nat s) = Some p -> Means ps (Named (n ++ "#" ++ showN s)) p.

(** What an edge joins, and the parameters a user gave it: the two physical ports (if there are any), the least buffer
    size, the weight, the name. *)
Definition Wire : Type := option nat * option nat * option N * Z * string.

Definition outEnd (bs : list GBlock) (i : nat) (d : PortDef) : option nat := (** a source end *)
  match findB i bs with Some b => resolve (gouts b) d | None => None end.
Definition inEnd (bs : list GBlock) (i : nat) (d : PortDef) : option nat := (** a destination end *)
  match findB i bs with Some b => resolve (gins b) d | None => None end.

Definition wireOf (bs : list GBlock) (e : GEdge) : Wire := (** what one edge joins *)
  (outEnd bs (gsrc e) (gsrcPort e), inEnd bs (gdst e) (gdstPort e), gmin e, gweight e, gename e).

(** All wires inside a block, over all levels. *)
Fixpoint blockWires (b : GBlock) : list Wire :=
  match b with GB _ _ _ _ _ kids es _ _ => map (wireOf kids) es ++ flat_map blockWires kids end.

(** All wires of a graph, over all levels. *)
Definition allWires (g : GGraph) : list Wire := map (wireOf (gblocks g)) (gedges g) ++ flat_map blockWires (gblocks g).

(** A graph as built by adding blocks and connecting them: identities differ, edges join blocks of the graph, no edge twice. *)
Record wellBuilt (bs : list GBlock) (es : list GEdge) : Prop := {
  wb_ids : NoDup (map gid bs);
  wb_ends : forall e, In e es -> In (gsrc e) (map gid bs) /\ In (gdst e) (map gid bs);
  wb_once : ForallOrdPairs (fun a b => gedgeEq a b = false) es }.

(** An edge with exactly one end among the targets. *)
Definition crosses (targets : list GBlock) (e : GEdge) : Prop := grouped targets (gsrc e) <> grouped targets (gdst e).

(** The inner end of a crossing edge denotes a port: block [b], direction [d], definition [p]. *)
Definition innerEnd (targets : list GBlock) (e : GEdge) (b : GBlock) (d : Dir) (p : PortDef) : Prop :=
  In b targets /\
  ((d = DOut /\ gid b = gsrc e /\ p = gsrcPort e /\ grouped targets (gdst e) = false) \/
   (d = DIn /\ gid b = gdst e /\ p = gdstPort e /\ grouped targets (gsrc e) = false)).

(** Every inner end of an edge that crosses the border is a port that exists. *)
Definition innerPortsExist (targets : list GBlock) (g : GGraph) : Prop :=
  forall e b d p, In e (gedges g) -> innerEnd targets e b d p -> resolve (portsOf d b) p <> None.

(** ... and can be exported under a name that can be found again. *)
Definition innerNamesPlain (targets : list GBlock) (g : GGraph) : Prop :=
  forall e b d p, In e (gedges g) -> innerEnd targets e b d p ->
    hashFree (gname b) /\ forall n, definedPortName (portsOf d b) p = Some n -> hashFree n.

(** A sub-graph whose ports are exactly the exported ones: each under its own name, non-empty and without ['#'], and each
    a port of a block inside. *)
Definition exportsSound (kids : list GBlock) (d : Dir) (book : list Export) (ps : list DPort) : Prop :=
  NoDup (map xext book) /\ Forall (fun x => hashFree (xext x) /\ xext x <> EmptyString) book /\
  Forall2 (fun x q => exists b p, findB (xblk x) kids = Some b /\ portFromName (portsOf d b) (xint x) = Some p /\ q = One (xext x) p) book ps.

Definition soundGroup (s : GBlock) : Prop := (** both directions *)
  ggroup s = true /\ exportsSound (gsub s) DIn (gbookIn s) (gins s) /\ exportsSound (gsub s) DOut (gbookOut s) (gouts s).

(** Every crossing edge has a definite least buffer size ([connect] gives every edge one). *)
Definition boundedSize (targets : list GBlock) (g : GGraph) : Prop :=
  forall e, In e (gedges g) -> crosses targets e -> gmin e <> None.

(** The blocks to be grouped have ports as blocks declare them. *)
Definition plainTargets (targets : list GBlock) : Prop := forall b, In b targets -> plainPorts (gins b) /\ plainPorts (gouts b).

(** No block inside a group is the group or one of the blocks around it. *)
Record separate (sub : GBlock) (bs : list GBlock) : Prop := {
  sp_kids : forall i, In i (map gid (gsub sub)) -> i <> gid sub /\ ~ In i (map gid bs) }.
