(** What the graph helpers and job lists are supposed to deliver, in graph-theoretic terms only.

    The data types (blocks, edges, adjacency list) are those of the model; everything else is defined afresh. *)
From Coq Require Import Ascii String ZArith Permutation Lia List.
From Verif Require Import TopoModel.
Import ListNotations.
Local Open Scope nat_scope.

(** ** Iteration order of hash maps *)

(** [a'] holds the same keys and values as [a], visited in any order on both levels. *)
Definition sameMap (a a' : AdjList) : Prop :=
  exists a1, Forall2 (fun x y => fst x = fst y /\ Permutation (snd x) (snd y)) a a1 /\ Permutation a1 a'.

(** ** Directed reachability *)

(** There is an edge from [a] to [b]. *)
Definition linked (es : list Edge) (a b : nat) : Prop := exists e, In e es /\ src e = a /\ dst e = b.

(** A walk of [n] edges from [a] to [b]. *)
Inductive walk (es : list Edge) (a : nat) : nat -> nat -> Prop :=
| walk_nil : walk es a 0 a
| walk_snoc n b c : walk es a n b -> linked es b c -> walk es a (S n) c.

(** A source: something leaves it and nothing enters it. *)
Definition isSource (es : list Edge) (b : nat) : Prop :=
  (exists c, linked es b c) /\ forall c, ~ linked es c b.

(** Reached from some source in at most [n] steps. *)
Definition within (es : list Edge) (n : nat) (b : nat) : Prop :=
  exists s m, isSource es s /\ m <= n /\ walk es s m b.

(** Reached from some source. *)
Definition reached (es : list Edge) (b : nat) : Prop := exists n, within es n b.

(** ** Job lists *)

(** Block number [i] of the list sits in job list [i mod n] at place [i / n]; nothing else is in the job lists. *)
Definition roundRobin (bs : list nat) (n : nat) (jobs : list (list nat)) : Prop :=
  length jobs = n /\
  forall i, nth_error bs i = match nth_error jobs (i mod n) with Some j => nth_error j (i / n) | None => None end.

(** A block nearer to the sources comes before one further away. *)
Definition byDistance (es : list Edge) (l : list nat) : Prop :=
  forall i j x y, i < j -> nth_error l i = Some x -> nth_error l j = Some y -> forall n, within es n y -> within es n x.

(** Every block is a source or comes after a block that feeds it. *)
Definition fedFirst (es : list Edge) (l : list nat) : Prop :=
  forall i b, nth_error l i = Some b -> isSource es b \/ exists j p, j < i /\ nth_error l j = Some p /\ linked es p b.

(** Every block feeds only blocks of [l]. *)
Definition exhausted (es : list Edge) (l : list nat) (b : nat) : Prop := forall c, linked es b c -> In c l.

(** Depth-first order: after the blocks [p], the next block [b] continues from the latest block that still has
    somewhere new to go; a source is only taken up when there is none. *)
Definition depthFirst (es : list Edge) (l : list nat) : Prop :=
  forall p b q, l = p ++ b :: q ->
    (isSource es b /\ forall w, In w p -> exhausted es p w) \/
    exists p1 z p2, p = p1 ++ z :: p2 /\ linked es z b /\ forall w, In w p2 -> exhausted es p w.

(** ** Nesting *)

(** [b] is a block of the graph, or of a group the traversal looks into that is itself in the graph. *)
Inductive holds (looksInto : Category -> Prop) (g : Graph) : Block -> Prop :=
| holds_top b : In b (blocks g) -> holds looksInto g b
| holds_in i c ch es b : holds looksInto g (Blk i c ch es) -> looksInto c -> In b ch -> holds looksInto g b.

(** The edges belonging to a graph and the transparent groups in it. *)
Definition ownEdge (g : Graph) (e : Edge) : Prop :=
  In e (edges g) \/
  exists i ch es, holds (fun c => c = TransparentBlockGroup) g (Blk i TransparentBlockGroup ch es) /\ In e es.

(** ** Undirected connectivity *)

(** Joined by an edge with both ends among [ids], in either direction. *)
Definition joined (ids : list nat) (es : list Edge) (a b : nat) : Prop :=
  In a ids /\ In b ids /\ (linked es a b \/ linked es b a).

(** Connected by a chain of such edges. *)
Inductive connected (ids : list nat) (es : list Edge) (a : nat) : nat -> Prop :=
| conn_nil : connected ids es a a
| conn_snoc b c : connected ids es a b -> joined ids es b c -> connected ids es a c.

(** ** Cycles *)

(** Every edge starts where the one before it ends. *)
Definition consecutive (c : list Edge) : Prop :=
  forall i e e', nth_error c i = Some e -> nth_error c (S i) = Some e' -> dst e = src e'.

(** [c] is a cycle: edges of the graph, one after the other, the last one ending where the first one starts. *)
Definition cycle (es : list Edge) (c : list Edge) : Prop :=
  incl c es /\ consecutive c /\ exists f l front rest, c = f :: rest /\ c = front ++ [l] /\ dst l = src f.

(** No block is passed twice. *)
Definition simple (c : list Edge) : Prop := NoDup (map src c).

(** The edge that closes a loop, into which priming samples are put. *)
Definition closes (l : list (list Edge)) (e : Edge) : Prop := exists c front, In c l /\ c = front ++ [e].

(** ** Edges as connections *)

(** What makes two edges the same connection: blocks and ports, not size, weight or name. *)
Definition connection (e : Edge) : nat * PortDef * nat * PortDef := (src e, srcPort e, dst e, dstPort e).

(** No connection is listed twice. *)
Definition distinct (es : list Edge) : Prop := NoDup (map connection es).

(** ** Components *)

(** [parts] are the connected parts of the graph: together they hold every block once, two blocks share a part exactly
    when they are connected, no part is empty, every part has exactly the edges between its blocks, larger parts first. *)
Definition components (ids : list nat) (es : list Edge) (parts : list (list nat * list Edge)) : Prop :=
  Permutation (concat (map fst parts)) ids /\
  (forall a b, In a ids -> In b ids ->
     ((exists p, In p parts /\ In a (fst p) /\ In b (fst p)) <-> connected ids es a b)) /\
  (forall p, In p parts -> fst p <> []) /\
  (forall p, In p parts -> NoDup (snd p) /\ forall e, In e (snd p) <-> In e es /\ In (src e) (fst p) /\ In (dst e) (fst p)) /\
  (forall i j p q, i < j -> nth_error parts i = Some p -> nth_error parts j = Some q -> length (fst q) <= length (fst p)).

(** ** Priming *)
Local Open Scope Z_scope.

(** Product over the blocks a loop runs through. *)
Definition productOf (f : nat -> Z) (c : list Edge) : Z := fold_right Z.mul 1 (map (fun e => f (dst e)) c).

(** What a block makes of [k] samples waiting at the loop's input: whole chunks only. *)
Definition passes (num den k : Z) : Z := (k / num) * den.

(** Starting with [k] samples in front of the first block of the list, every block in turn has at least its minimum
    and one whole chunk, and hands its output on to the next. *)
Fixpoint flows (num den need : nat -> Z) (bs : list nat) (k : Z) : Prop :=
  match bs with
  | [] => True
  | b :: r => need b <= k /\ num b <= k /\ flows num den need r (passes (num b) (den b) k)
  end.

(** What the port an edge leads to asks for at least; [at] is the position of the port among all input ports. *)
Definition atLeast (mins : list Z) (at_ : option nat) : Z := match at_ with Some k => nth k mins 0 | None => 0 end.

(** Numerator and denominator are positive and fit a signed 32-bit number, as the code declares them. *)
Definition sane (i : BlockInfo) : Prop := 1 <= numerator i < 2 ^ 31 /\ 1 <= denominator i < 2 ^ 31.

(** ** Names *)
Local Open Scope nat_scope.

(** Bytewise dictionary order, written out. *)
Fixpoint notAfter (a b : String.string) : Prop :=
  match a, b with
  | String.EmptyString, _ => True
  | String.String _ _, String.EmptyString => False
  | String.String x a', String.String y b' =>
      Ascii.nat_of_ascii x < Ascii.nat_of_ascii y \/ (x = y /\ notAfter a' b')
  end.

(** Earlier entries do not come after later ones in the dictionary. *)
Definition byName (name : nat -> String.string) (l : list nat) : Prop :=
  forall i j x y, i < j -> nth_error l i = Some x -> nth_error l j = Some y -> notAfter (name x) (name y).

(** Every place of the job lists holds a different block. *)
Definition once (jobs : list (list nat)) : Prop :=
  forall b k l j j' m m', nth_error jobs k = Some j -> nth_error j m = Some b ->
    nth_error jobs l = Some j' -> nth_error j' m' = Some b -> k = l /\ m = m'.

(** ** Ports *)

(** How many ports an entry of the port list stands for. *)
Definition width (p : InPort) : nat := match p with SinglePort _ => 1 | PortCollection _ n => n end.

(** How many ports come before entry number [t]. *)
Definition widthBefore (ports : list InPort) (t : nat) : nat := list_sum (map width (firstn t ports)).

(** Port number [k], counting the members of collections one by one, is the one a port definition means.  (Members of
    collections given by name, "name#3", are left out.) *)
Inductive leadsTo (ports : list InPort) : PortDef -> nat -> Prop :=
| leads_index t sub n : nth_error ports (N.to_nat t) = Some (SinglePort n) ->
    leadsTo ports (Idx t sub) (widthBefore ports (N.to_nat t))
| leads_member t s n size : nth_error ports (N.to_nat t) = Some (PortCollection n size) -> N.to_nat s < size ->
    leadsTo ports (Idx t (Some s)) (widthBefore ports (N.to_nat t) + N.to_nat s)
| leads_name n t : nth_error ports t = Some (SinglePort n) ->
    (forall t', t' < t -> nth_error ports t' <> Some (SinglePort n)) ->
    leadsTo ports (Named n) (widthBefore ports t).

(** Port names do not contain the character that separates name and index. *)
Definition plainName (s : String.string) : Prop := ~ In "#"%char (String.list_ascii_of_string s).
