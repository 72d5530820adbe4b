(** Connecting and priming: what should hold after a start. *)
From Coq Require Import ZArith List.
From Verif Require Import TopoModel TopoSpec.
Import ListNotations.
Local Open Scope nat_scope.

(** Everything reachable through transparent groups. *)
Definition inside (g : Graph) (b : Block) : Prop := holds (fun c => c = TransparentBlockGroup) g b.

(** The edge lists a scheduler is responsible for: its graph's and those of the transparent groups in it. *)
Definition managed (g : Graph) (es : list Edge) : Prop :=
  es = edges g \/ exists b, inside g b /\ bcat b = TransparentBlockGroup /\ es = binner b.

(** The input an edge leads to. *)
Definition inputOf (e : Edge) : nat * PortDef := (dst e, dstPort e).

(** Edges start at blocks of the graph, or of the group, they belong to; only groups have edges. *)
Definition wellFormed (g : Graph) : Prop :=
  (forall e, In e (edges g) -> exists b, In b (blocks g) /\ bid b = src e) /\
  (forall b e, inside g b -> In e (binner b) ->
     (bcat b = TransparentBlockGroup \/ bcat b = ScheduledBlockGroup) /\ exists c, In c (bchildren b) /\ bid c = src e).

(** The graph itself, or a transparent group in it taken as a graph of its own. *)
Definition partOf (g h : Graph) : Prop :=
  h = g \/ exists b, inside g b /\ bcat b = TransparentBlockGroup /\ h = mkGraph (bchildren b) (binner b).

(** Every edge of the graph and of the blocks inside it, each counted as often as it is listed. *)
Definition allEdges (g : Graph) : list Edge := edges g ++ flat_map binner (forEachBlock TransparentBlockGroup g).
