(** Model of the graph-topology helpers and of the job lists the schedulers build from them.

    Sources: core/include/gnuradio-4.0/Graph.hpp (lines 64-84, 446-457, 885-1221),
    core/include/gnuradio-4.0/BlockModel.hpp (lines 20-44, 64-72, 152-159, 369-410),
    core/include/gnuradio-4.0/Scheduler.hpp (lines 740-744, 1916-2127).

    Blocks are shared pointers compared by address, so a block is named by a number here.  The two-level
    [std::unordered_map] of the adjacency list is an association list; its iteration order is unspecified in
    C++, so the theorems are stated for every reordering of it.  Recursion and work queues carry a fuel; the
    proofs show that the fuel handed in by the callers is never used up. *)
From Coq Require Import Ascii String ZArith NArith Bool Arith List.
From Verif Require Import Base.
Import ListNotations.
Local Open Scope nat_scope.

(** BlockModel.hpp:20-44 [PortDefinition]: either indices or a name.  [meta::invalid_index] as sub-index is [None]. *)
Inductive PortDef := Idx (topLevel : N) (subIndex : option N) | Named (name : string).

(** BlockModel.hpp:25 [IndexBased::operator==]; the invalid sub-index equals itself only. *)
Definition subEq (a b : option N) : bool :=
  match a, b with
  | None, None => true
  | Some x, Some y => N.eqb x y
  | _, _ => false
  end.

(** BlockModel.hpp:25,31,43 [PortDefinition::operator==]: variants of different kind are never equal. *)
Definition portEq (a b : PortDef) : bool :=
  match a, b with
  | Idx t s, Idx t' s' => N.eqb t t' && subEq s s'
  | Named n, Named n' => String.eqb n n'
  | _, _ => false
  end.

(** BlockModel.hpp:75-97 [Edge]: the members read by the functions below.  State, resolved ports, memory
    resources, compute domain and UI constraints are left out. *)
Record Edge := mkEdge {
  src : nat; srcPort : PortDef;
  dst : nat; dstPort : PortDef;
  minBuf : Z; weight : Z; ename : string }.

(** BlockModel.hpp:154-159 [Edge::operator==]: end points and ports only, not size, weight or name. *)
Definition edgeEq (a b : Edge) : bool :=
  Nat.eqb (src a) (src b) && Nat.eqb (dst a) (dst b) && portEq (srcPort a) (srcPort b) && portEq (dstPort a) (dstPort b).

(** Block.hpp:685, Graph.hpp:375, Scheduler.hpp:268: the category constants; [All] is only used as a selector. *)
Inductive Category := NormalBlock | TransparentBlockGroup | ScheduledBlockGroup | AllCat.

(** Comparison of the category enumeration, Graph.hpp:897,900. *)
Definition catEq (a b : Category) : bool :=
  match a, b with
  | NormalBlock, NormalBlock | TransparentBlockGroup, TransparentBlockGroup
  | ScheduledBlockGroup, ScheduledBlockGroup | AllCat, AllCat => true
  | _, _ => false
  end.

(** BlockModel.hpp:778,804-836: what a block shows of itself: identity, category, and for a group its own blocks and edges. *)
Inductive Block := Blk (id : nat) (cat : Category) (children : list Block) (inner : list Edge).

Definition bid (b : Block) : nat := match b with Blk i _ _ _ => i end. (** BlockModel.hpp: pointer identity *)
Definition bcat (b : Block) : Category := match b with Blk _ c _ _ => c end. (** BlockModel.hpp:778 [blockCategory] *)
Definition bchildren (b : Block) : list Block := match b with Blk _ _ l _ => l end. (** BlockModel.hpp:813 [blocks] *)
Definition binner (b : Block) : list Edge := match b with Blk _ _ _ e => e end. (** BlockModel.hpp:830 [edges] *)

(** Graph.hpp:362-363 [Graph::_blocks], [Graph::_edges]. *)
Record Graph := mkGraph { blocks : list Block; edges : list Edge }.

(** Graph.hpp:894-903: whether [traverseSubgraphs] descends into a block of this category. *)
Definition enters (traverse c : Category) : bool :=
  match traverse with
  | AllCat => catEq c TransparentBlockGroup || catEq c ScheduledBlockGroup
  | _ => catEq c traverse
  end.

(** Graph.hpp:888-906 [traverseSubgraphs] below one block of the visited graph, in visiting order, seen through
    [forEachBlock] (911-922): all blocks of the sub-graph first, then the sub-graphs of those. *)
Fixpoint subBlocks (traverse : Category) (b : Block) : list Block :=
  match b with
  | Blk _ c ch _ => if enters traverse c then ch ++ flat_map (subBlocks traverse) ch else []
  end.

(** Graph.hpp:910-922 [forEachBlock] without category filter: the blocks handed to the callback, in order. *)
Definition forEachBlock (traverse : Category) (g : Graph) : list Block :=
  blocks g ++ flat_map (subBlocks traverse) (blocks g).

(** Graph.hpp:924-929 [countBlocks] with the default filter. *)
Definition countBlocks (traverse : Category) (g : Graph) : nat := length (forEachBlock traverse g).

(** Graph.hpp:446-448 [containsEdge]. *)
Definition containsEdge (es : list Edge) (e : Edge) : bool := existsb (fun x => edgeEq x e) es.

(** Graph.hpp:450-457 [addEdge]: refused (the graph stays as it is) when an equal edge is present. *)
Definition addEdge (es : list Edge) (e : Edge) : list Edge := if containsEdge es e then es else es ++ [e].

(** Graph.hpp:951-963 [flatten]: blocks of all traversed sub-graphs, then the root's edges, then the edges of every
    block handed out by [forEachBlock]; refused duplicates are ignored. *)
Definition flatten (traverse : Category) (g : Graph) : Graph :=
  let bs := forEachBlock traverse g in
  mkGraph bs (fold_left addEdge (flat_map binner bs) (fold_left addEdge (edges g) [])).

(** Graph.hpp:965-966 [AdjacencyList]. *)
Definition PortMap := list (PortDef * list Edge).
(** Graph.hpp:965-966 [AdjacencyList], outer level. *)
Definition AdjList := list (nat * PortMap).

(** Graph.hpp:971-972: [map[port].push_back(edge)] on the inner map. *)
Fixpoint portPush (p : PortDef) (e : Edge) (m : PortMap) : PortMap :=
  match m with
  | [] => [(p, [e])]
  | (q, es) :: r => if portEq q p then (q, es ++ [e]) :: r else (q, es) :: portPush p e r
  end.

(** Graph.hpp:971-972: [result[source][port].push_back(edge)]. *)
Fixpoint adjPush (e : Edge) (a : AdjList) : AdjList :=
  match a with
  | [] => [(src e, [(srcPort e, [e])])]
  | (b, m) :: r => if Nat.eqb b (src e) then (b, portPush (srcPort e) e m) :: r else (b, m) :: adjPush e r
  end.

(** Graph.hpp:968-975 [computeAdjacencyList]. *)
Definition computeAdjacencyList (es : list Edge) : AdjList := fold_left (fun a e => adjPush e a) es [].

(** Iteration [for edges in adj.at(block) | values, for edge in edges] (Scheduler.hpp:2038-2045, 2101-2107,
    Graph.hpp:1119-1121); nothing when the block is not a key. *)
Definition outOf (a : AdjList) (b : nat) : list Edge :=
  match find (fun x => Nat.eqb (fst x) b) a with
  | Some (_, m) => flat_map snd m
  | None => []
  end.

(** Membership test standing for [std::set]/[std::unordered_set] [contains] and [insert().second]. *)
Definition mem (b : nat) (l : list nat) : bool := existsb (Nat.eqb b) l.

(** Insertion sort standing for [std::sort] by name, Graph.hpp:1096.  Equal names keep the order of the input, which
    itself is the unspecified order of the hash map. *)
Fixpoint insertByName (name : nat -> string) (b : nat) (l : list nat) : list nat :=
  match l with
  | [] => [b]
  | c :: r => if String.ltb (name c) (name b) then c :: insertByName name b r else b :: c :: r
  end.

(** Graph.hpp:1096 [std::sort(sources, by name)]. *)
Definition sortByName (name : nat -> string) (l : list nat) : list nat := fold_right (insertByName name) [] l.

(** Graph.hpp:1086-1092: the set of destinations collected over the whole adjacency list. *)
Definition destinations (a : AdjList) : list nat := map dst (flat_map (fun x => flat_map snd (snd x)) a).

(** Graph.hpp:1081-1098 [findSourceBlocks]. *)
Definition findSourceBlocks (name : nat -> string) (a : AdjList) : list nat :=
  sortByName name (filter (fun b => negb (mem b (destinations a))) (map fst a)).

(** Scheduler.hpp:2039-2044: [if (reached.insert(dst).second) queue.push(dst)] for one edge. *)
Definition bfsPush (s : list nat * list nat) (e : Edge) : list nat * list nat :=
  let '(queue, reached) := s in
  if mem (dst e) reached then s else (queue ++ [dst e], dst e :: reached).

(** Scheduler.hpp:2027-2046: the breadth-first loop; [acc] is [blockList]. *)
Fixpoint bfsLoop (fuel : nat) (a : AdjList) (queue reached visited acc : list nat) : list nat :=
  match fuel, queue with
  | O, _ => acc
  | S _, [] => acc
  | S f, current :: rest =>
      let '(visited', acc') := if mem current visited then (visited, acc) else (current :: visited, acc ++ [current]) in
      let '(queue', reached') := fold_left bfsPush (outOf a current) (rest, reached) in
      bfsLoop f a queue' reached' visited' acc'
  end.

(** Scheduler.hpp:2021-2025: [if (reached.insert(src).second) queue.push(src)] for one source. *)
Definition bfsSeed (s : list nat * list nat) (b : nat) : list nat * list nat :=
  let '(queue, reached) := s in
  if mem b reached then s else (queue ++ [b], b :: reached).

(** Scheduler.hpp:2012-2046: [blockList] of the breadth-first scheduler. *)
Definition bfsBlocks (name : nat -> string) (a : AdjList) : list nat :=
  let sources := findSourceBlocks name a in
  let '(queue, reached) := fold_left bfsSeed sources ([], []) in
  bfsLoop (S (length sources + length (destinations a))) a queue reached [] [].

(** Scheduler.hpp:2094-2109: the recursive visit; the pair is ([visited], [blockList]). *)
Fixpoint dfsVisit (fuel : nat) (a : AdjList) (node : nat) (s : list nat * list nat) : list nat * list nat :=
  match fuel with
  | O => s
  | S f =>
      let '(visited, acc) := s in
      if mem node visited then s
      else fold_left (fun s e => dfsVisit f a (dst e) s) (outOf a node) (node :: visited, acc ++ [node])
  end.

(** Scheduler.hpp:2087-2113: [blockList] of the depth-first scheduler. *)
Definition dfsBlocks (name : nat -> string) (a : AdjList) : list nat :=
  snd (fold_left (fun s b => dfsVisit (S (length (destinations a))) a b s) (findSourceBlocks name a) ([], [])).

(** Scheduler.hpp:1944-1950, 1963-1965: [for (i = start; i < size; i += step) push_back(blocks[i])]. *)
Fixpoint everyNth (fuel i step : nat) (bs : list nat) : list nat :=
  match fuel with
  | O => []
  | S f => match nth_error bs i with Some b => b :: everyNth f (i + step) step bs | None => [] end
  end.

(** Scheduler.hpp:1959-1969 [batchBlocks]; the same loop is written out in [Simple::customInit] (1942-1951). *)
Definition batchBlocks (bs : list nat) (nBatches : nat) : list (list nat) :=
  map (fun batch => everyNth (length bs) batch nBatches bs) (seq 0 nBatches).

(** Scheduler.hpp:1929-1936: the execution policies. *)
Inductive Policy := singleThreaded | singleThreadedBlocking | externalStep | multiThreaded.

(** Scheduler.hpp:740-744 [availableThreadCount]. *)
Definition availableThreadCount (poolMaxThreads busyThreads : nat) : nat :=
  if busyThreads <? poolMaxThreads then poolMaxThreads - busyThreads else 1.

(** Scheduler.hpp:1929-1936, 2048, 2116: number of job lists. *)
Definition nBatches (p : Policy) (threads nBlocks : nat) : nat :=
  match p with multiThreaded => Nat.min threads nBlocks | _ => 1 end.

(** Scheduler.hpp:1922-1952 [Simple::customInit]. *)
Definition simpleJobs (p : Policy) (threads : nat) (g : Graph) : list (list nat) :=
  let ids := map bid (blocks (flatten TransparentBlockGroup g)) in
  batchBlocks ids (nBatches p threads (length ids)).

(** Scheduler.hpp:1991-2054 [BreadthFirst::customInit], for a given iteration order of the adjacency list. *)
Definition breadthFirstJobs (name : nat -> string) (p : Policy) (threads : nat) (a : AdjList) : list (list nat) :=
  let l := bfsBlocks name a in batchBlocks l (nBatches p threads (length l)).

(** Scheduler.hpp:2067-2122 [DepthFirst::customInit], for a given iteration order of the adjacency list. *)
Definition depthFirstJobs (name : nat -> string) (p : Policy) (threads : nat) (a : AdjList) : list (list nat) :=
  let l := dfsBlocks name a in batchBlocks l (nBatches p threads (length l)).

(** ** Weakly connected components *)

(** Graph.hpp:981-985: index of a block; [emplace] keeps the first occurrence. *)
Fixpoint indexOf (l : list nat) (b : nat) : option nat :=
  match l with
  | [] => None
  | c :: r => if Nat.eqb c b then Some O else option_map S (indexOf r b)
  end.

(** Graph.hpp:987-1001: both directions of one edge, when both ends are blocks of the graph. *)
Definition pushBoth (ids : list nat) (adj : list (list nat)) (e : Edge) : list (list nat) :=
  match indexOf ids (src e), indexOf ids (dst e) with
  | Some s, Some d =>
      let adj1 := upd adj s (nth s adj [] ++ [d]) in
      upd adj1 d (nth d adj1 [] ++ [s])
  | _, _ => adj
  end.

(** Graph.hpp:987-1001 [adjacencyList]. *)
Definition undirected (ids : list nat) (es : list Edge) : list (list nat) :=
  fold_left (pushBoth ids) es (repeat [] (length ids)).

(** Graph.hpp:1024-1029: label and enqueue one neighbour; [None] stands for [compId == -1]. *)
Definition wccPush (c : nat) (s : list nat * list (option nat)) (u : nat) : list nat * list (option nat) :=
  let '(q, lab) := s in
  match nth u lab None with
  | None => (q ++ [u], upd lab u (Some c))
  | Some _ => s
  end.

(** Graph.hpp:1019-1030: breadth-first collection of one component. *)
Fixpoint wccLoop (fuel : nat) (adj : list (list nat)) (c : nat) (q : list nat) (lab : list (option nat)) (comp : list nat)
  : list nat * list (option nat) :=
  match fuel, q with
  | O, _ => (comp, lab)
  | S _, [] => (comp, lab)
  | S f, v :: rest =>
      let '(q', lab') := fold_left (wccPush c) (nth v adj []) (rest, lab) in
      wccLoop f adj c q' lab' (comp ++ [v])
  end.

(** Graph.hpp:1008-1032: one turn of the outer loop. *)
Definition wccStep (adj : list (list nat)) (s : list (list nat) * list (option nat)) (v : nat)
  : list (list nat) * list (option nat) :=
  let '(comps, lab) := s in
  match nth v lab None with
  | Some _ => s
  | None =>
      let c := length comps in
      let '(comp, lab') := wccLoop (length adj) adj c [v] (upd lab v (Some c)) [] in
      (comps ++ [comp], lab')
  end.

(** Graph.hpp:1003-1032: components as index lists, and the label of every block. *)
Definition wccLabel (n : nat) (adj : list (list nat)) : list (list nat) * list (option nat) :=
  fold_left (wccStep adj) (seq 0 n) ([], repeat None n).

(** Graph.hpp:1044-1053: the blocks of component [cid]. *)
Definition compBlocks (ids : list nat) (comp : list nat) : list nat := map (fun i => nth i ids 0) comp.

(** Graph.hpp:1055-1070: the edges of component [cid], in graph order, through [addEdge]. *)
Definition compEdges (ids : list nat) (lab : list (option nat)) (es : list Edge) (cid : nat) : list Edge :=
  fold_left (fun acc e =>
    match indexOf ids (src e), indexOf ids (dst e) with
    | Some s, Some d =>
        match nth s lab None, nth d lab None with
        | Some a, Some b => if Nat.eqb a b && Nat.eqb a cid then addEdge acc e else acc
        | _, _ => acc
        end
    | _, _ => acc
    end) es [].

(** Graph.hpp:977-1073 [weaklyConnectedComponents]; [order] is what [std::ranges::sort] (1037) makes of
    0, 1, ..: the theorems quantify over all permutations sorted by size. *)
Definition weaklyConnectedComponents (ids : list nat) (es : list Edge) (order : list nat) : list (list nat * list Edge) :=
  let '(comps, lab) := wccLabel (length ids) (undirected ids es) in
  map (fun cid => (compBlocks ids (nth cid comps []), compEdges ids lab es cid)) order.

(** Graph.hpp:1003-1032: sizes of the components, the key of the sort in line 1037. *)
Definition componentSizes (ids : list nat) (es : list Edge) : list nat :=
  map (@length nat) (fst (wccLabel (length ids) (undirected ids es))).

(** ** Feedback loops *)

(** Graph.hpp:1104 [VisitState]. *)
Inductive Colour := Unvisited | Gray | Black.

(** Graph.hpp:1106-1109: [visited], [path], [pathEdges], [loops].  Looking up an absent key of [visited] inserts
    [Unvisited]; the map is a total function here. *)
Record LoopSt := mkLoopSt { colour : nat -> Colour; path : list nat; pathEdges : list Edge; loops : list (list Edge) }.

(** Graph.hpp:1116,1146: assignment into [visited]. *)
Definition setColour (c : nat -> Colour) (b : nat) (v : Colour) : nat -> Colour :=
  fun x => if Nat.eqb x b then v else c x.

(** Graph.hpp:1125-1134: [std::ranges::find(path, next)] as an index, and the copied cycle. *)
Definition recordLoop (s : LoopSt) (next : nat) : LoopSt :=
  match indexOf (path s) next with
  | Some i => mkLoopSt (colour s) (path s) (pathEdges s) (loops s ++ [skipn i (pathEdges s)])
  | None => s
  end.

(** Graph.hpp:1115-1147: the depth-first walk. *)
Fixpoint loopDfs (fuel : nat) (a : AdjList) (current : nat) (s : LoopSt) : LoopSt :=
  match fuel with
  | O => s
  | S f =>
      let s1 := mkLoopSt (setColour (colour s) current Gray) (path s ++ [current]) (pathEdges s) (loops s) in
      let s2 := fold_left (fun s e =>
        let sp := mkLoopSt (colour s) (path s) (pathEdges s ++ [e]) (loops s) in
        let sn := match colour sp (dst e) with
                  | Gray => recordLoop sp (dst e)
                  | Unvisited => loopDfs f a (dst e) sp
                  | Black => sp
                  end in
        mkLoopSt (colour sn) (path sn) (removelast (pathEdges sn)) (loops sn)) (outOf a current) s1 in
      mkLoopSt (setColour (colour s2) current Black) (removelast (path s2)) (pathEdges s2) (loops s2)
  end.

(** Graph.hpp:1103-1155 [detectFeedbackLoops], for a given iteration order of the adjacency list; [starts] are the
    blocks handed out by [forEachBlock<All>] (1149-1153). *)
Definition loopsFrom (a : AdjList) (starts : list nat) : list (list Edge) :=
  loops (fold_left (fun s b => match colour s b with
                               | Unvisited => loopDfs (S (length (destinations a))) a b s
                               | _ => s end)
                   starts (mkLoopSt (fun _ => Unvisited) [] [] [])).

(** Graph.hpp:1103-1155 [detectFeedbackLoops] with the blocks of a graph as starting points. *)
Definition detectFeedbackLoops (a : AdjList) (g : Graph) : list (list Edge) :=
  loopsFrom a (map bid (forEachBlock AllCat g)).

(** ** Priming size *)
Local Open Scope Z_scope.

(** BlockModel.hpp:201-220: an entry of [_dynamicInputPorts]: a port or a named collection of ports. *)
Inductive InPort := SinglePort (name : string) | PortCollection (name : string) (size : nat).

(** BlockModel.hpp:330-336 [portName]. *)
Definition inPortName (p : InPort) : string := match p with SinglePort n => n | PortCollection n _ => n end.

(** BlockModel.hpp:782-790: what a block reports: [resamplingRatio], [stride], [minInputRequirements] (one entry per
    port, collections expanded), and its input ports. *)
Record BlockInfo := mkInfo { numerator : Z; denominator : Z; stride : Z; minInput : list Z; inPorts : list InPort }.

(** Wrap-around of the [std::int32_t] products of Graph.hpp:1163-1168 (overflow is undefined in C++; two's complement here). *)
Definition wrap32 (x : Z) : Z := (x + 2 ^ 31) mod 2 ^ 32 - 2 ^ 31.

(** Conversion to [std::size_t], Graph.hpp:1195,1213. *)
Definition toSize (x : Z) : Z := x mod 2 ^ 64.

(** Graph.hpp:64-84 [parsePort], the name part: everything before the first '#'. *)
Fixpoint portBase (s : string) : string :=
  match s with
  | EmptyString => EmptyString
  | String c r => if Ascii.eqb c "#"%char then EmptyString else String c (portBase r)
  end.

(** BlockModel.hpp:395-410 [dynamicInputPortIndex]. *)
Fixpoint portIndex (l : list InPort) (name : string) : option nat :=
  match l with
  | [] => None
  | p :: r => if String.eqb (inPortName p) name then Some O else option_map S (portIndex r name)
  end.

(** Graph.hpp:1182-1189: [destPortIdx]; [None] stands for [meta::invalid_index]. *)
Definition destPortIdx (i : BlockInfo) (p : PortDef) : option nat :=
  match p with
  | Idx t _ => Some (N.to_nat t)
  | Named n => portIndex (inPorts i) (portBase n)
  end.

(** Graph.hpp:1191-1202: contribution of the source block of the first edge. *)
Definition sourceNeed (i : BlockInfo) (n : Z) : Z :=
  let n1 := if 0 <? denominator i then Z.max n (toSize (n * toSize (numerator i)) / toSize (denominator i)) else n in
  if 0 <? stride i then Z.max n1 (stride i) else n1.

(** Graph.hpp:1205-1218: contribution of the destination block of an edge. *)
Definition destNeed (i : BlockInfo) (p : PortDef) (n : Z) : Z :=
  let n1 := match destPortIdx i p with
            | Some k => match nth_error (minInput i) k with Some m => if 0 <? m then Z.max n m else n | None => n end
            | None => n
            end in
  let n2 := if 0 <? numerator i then Z.max n1 (toSize (numerator i)) else n1 in
  if 0 <? stride i then Z.max n2 (stride i) else n2.

(** Graph.hpp:1174-1219: the loop over the edges; the source counts for the first edge only. *)
Definition samplesNeeded (info : nat -> BlockInfo) (loop : list Edge) : Z :=
  match loop with
  | [] => 0
  | e0 :: _ => fold_left (fun n e => destNeed (info (dst e)) (dstPort e) n) loop (sourceNeed (info (src e0)) 1)
  end.

(** Graph.hpp:1163-1168: the cumulative numerator and denominator. *)
Definition cumulative (info : nat -> BlockInfo) (loop : list Edge) : Z * Z :=
  fold_left (fun nd e => (wrap32 (fst nd * numerator (info (dst e))), wrap32 (snd nd * denominator (info (dst e))))) loop (1, 1).

(** Graph.hpp:1157-1221 [calculateLoopPrimingSize]; [None] is the error "unstable rate transformation". *)
Definition calculateLoopPrimingSize (info : nat -> BlockInfo) (loop : list Edge) : option Z :=
  match loop with
  | [] => Some 0
  | _ => let '(n, d) := cumulative info loop in
         if Z.eqb n d then Some (samplesNeeded info loop) else None
  end.
