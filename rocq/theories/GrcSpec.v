(* What users expect of saving and loading a graph, without the loader's helpers. *)

From Coq Require Import ZArith Bool Lia String List.
From Verif Require Import GrcModel.
Import ListNotations.

Local Open Scope string_scope.
Local Open Scope Z_scope.

(* A block the loader can create again: not a sub-graph, its name is among its settings. *)
Definition plain (known : string -> bool) (b : blk) : Prop :=
  match b with
  | Normal ty nm ps cx =>
    ty <> "SUBGRAPH" /\ known ty = true /\ look "name" ps = Some (VStr nm) /\ (forall c, In c cx -> fst (fst c) <> "")
  | Sub _ _ _ _ => False
  end.

(* A port index that fits into int64. *)
Definition okPort (p : pdef) : Prop :=
  match p with PIdx i => 0 <= i < 2 ^ 63 | PSub i j => 0 <= i < 2 ^ 63 /\ 0 <= j < 2 ^ 63 | PName _ => True end.

(* An edge that connect made between blocks of the graph that have names. *)
Definition okEdge (bs : list blk) (e : edge) : Prop :=
  (eS e < List.length bs)%nat /\ (eD e < List.length bs)%nat /\ okPort (eSP e) /\ okPort (eDP e) /\
  0 <= eMin e < 2 ^ 64 - 1 /\
  nth (eS e) (map nameOf bs) "" <> "" /\ nth (eD e) (map nameOf bs) "" <> "".

Definition okGraph (known : string -> bool) (g : graph) : Prop :=
  (forall b, In b (fst g) -> plain known b) /\ (forall e, In e (snd g) -> okEdge (fst g) e).

(* The names of the blocks differ. *)
Definition distinct (g : graph) : Prop := NoDup (map nameOf (fst g)).

(* The edge has the parameters a connection without them gets, and its size fits 32 bits. *)
Definition ordinary (e : edge) : Prop := eW e = 0 /\ eN e = "unnamed edge" /\ eMin e < 2 ^ 32.

(* e' joins the same ports of the same blocks. *)
Definition sameEnds (e e' : edge) : Prop :=
  eS e' = eS e /\ eSP e' = eSP e /\ eD e' = eD e /\ eDP e' = eDP e.

(* k is the last block with the name of block i. *)
Definition lastOf (bs : list blk) (i k : nat) : Prop :=
  (k < List.length bs)%nat /\ nth k (map nameOf bs) "" = nth i (map nameOf bs) "" /\
  forall j, (k < j < List.length bs)%nat -> nth j (map nameOf bs) "" <> nth i (map nameOf bs) "".

(* v names block k of the list: k is the last block of that name. *)
Definition names (bs : list blk) (v : val) (k : nat) : Prop :=
  exists s, v = VStr s /\ s <> "" /\ (k < List.length bs)%nat /\ nth k (map nameOf bs) "" = s /\
  forall j, (k < j < List.length bs)%nat -> nth j (map nameOf bs) "" <> s.

(* v is a port: a name, an index or a pair of indices. *)
Inductive port : val -> pdef -> Prop :=
| port_name : forall s, port (VStr s) (PName s)
| port_index : forall i, 0 <= i -> port (VNum I64 i) (PIdx i)
| port_pair : forall t1 t2 i j, t1 = I64 \/ t1 = U32 -> t2 = I64 \/ t2 = U32 -> 0 <= i -> 0 <= j ->
    port (VList [VNum t1 i; VNum t2 j]) (PSub i j).

(* v is a connection between the blocks, which gives the ends of e. *)
Definition connection (bs : list blk) (v : val) (e : edge) : Prop :=
  exists a b c d r, v = VList (a :: b :: c :: d :: r) /\
    names bs a (eS e) /\ port b (eSP e) /\ names bs c (eD e) /\ port d (eDP e).
