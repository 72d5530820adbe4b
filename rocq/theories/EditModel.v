(** Model of editing a graph: finding a port from its definition, exporting ports of a sub-graph, grouping and
    ungrouping blocks, removing and replacing a block.

    Sources: core/src/Graph.cpp (lines 33-281), core/include/gnuradio-4.0/Graph.hpp (lines 102, 254-353, 405-420,
    446-480, 563-580), core/include/gnuradio-4.0/BlockModel.hpp (lines 20-44, 74-160, 240-350).

    A block is a shared pointer compared by address and also carries a unique name; both are the one number [gid]
    here.  A physical port is a number as well, the same for a port and for every export of it ([DynamicPort::weakRef]
    refers to the port of the inner block).  [std::expected] is an option, the texts of errors are left out. *)
From Coq Require Import Ascii ZArith NArith Bool Arith Decimal DecimalString DecimalN DecimalNat String List.
From Verif Require Import Base TopoModel.
Import ListNotations.
Local Open Scope nat_scope.
Local Open Scope string_scope.
Local Open Scope list_scope.

(** ** Ports and how a definition selects one *)

(** BlockModel.hpp:191-210: a dynamic port or a named collection of them. *)
Inductive DPort := One (name : string) (phys : nat) | Many (name : string) (physs : list nat).

(** BlockModel.hpp:324-331 [portName]. *)
Definition dportName (p : DPort) : string := match p with One n _ => n | Many n _ => n end.

(** BlockModel.hpp:243, 256-257: the first ['#'] cuts the name in two. *)
Fixpoint cutHash (s : string) : option (string * string) :=
  match s with
  | EmptyString => None
  | String c r =>
      if Ascii.eqb c "#"%char then Some (EmptyString, r)
      else match cutHash r with Some (a, b) => Some (String c a, b) | None => None end
  end.

(** [std::from_chars] reads the longest run of decimal digits. *)
Definition isDigit (c : ascii) : bool := let n := N_of_ascii c in N.leb 48 n && N.leb n 57.

Fixpoint digitRun (s : string) : string := (** as above *)
  match s with
  | EmptyString => EmptyString
  | String c r => if isDigit c then String c (digitRun r) else EmptyString
  end.

(** BlockModel.hpp:259-262 [std::from_chars] into [std::size_t]: no digit or a value of 2^64 and above is an error,
    anything after the digits is ignored. *)
Definition fromChars (s : string) : option N :=
  match digitRun s with
  | EmptyString => None
  | d => match NilEmpty.uint_of_string d with
         | Some u => if N.ltb (N.of_uint u) (2 ^ 64) then Some (N.of_uint u) else None
         | None => None
         end
  end.

(** BlockModel.hpp:244-247: the first single port with that name. *)
Fixpoint findOne (name : string) (ps : list DPort) : option nat :=
  match ps with
  | [] => None
  | One n p :: r => if String.eqb n name then Some p else findOne name r
  | Many _ _ :: r => findOne name r
  end.

(** BlockModel.hpp:264-267: the first collection with that name. *)
Fixpoint findMany (name : string) (ps : list DPort) : option (list nat) :=
  match ps with
  | [] => None
  | Many n l :: r => if String.eqb n name then Some l else findMany name r
  | One _ _ :: r => findMany name r
  end.

(** BlockModel.hpp:240-279 [dynamicPortFromName]. *)
Definition portFromName (ps : list DPort) (name : string) : option nat :=
  match cutHash name with
  | None => findOne name ps
  | Some (base, idx) =>
      match fromChars idx with
      | None => None
      | Some i => match findMany base ps with
                  | None => None
                  | Some l => if N.leb (N.of_nat (List.length l)) i then None else nth_error l (N.to_nat i)
                  end
      end
  end.

(** BlockModel.hpp:281-312 [dynamicPortByIndexImpl]. *)
Definition portByIndex (ps : list DPort) (t : N) (sub : option N) : option nat :=
  match nth_error ps (N.to_nat t) with
  | None => None
  | Some (Many _ l) =>
      match sub with
      | None => None
      | Some s => if N.leb (N.of_nat (List.length l)) s then None else nth_error l (N.to_nat s)
      end
  | Some (One _ p) => match sub with None => Some p | Some _ => None end
  end.

(** BlockModel.hpp:334-350 [dynamicInputPort], [dynamicOutputPort] of a definition. *)
Definition resolve (ps : list DPort) (d : PortDef) : option nat :=
  match d with Idx t s => portByIndex ps t s | Named n => portFromName ps n end.

(** Decimal text of a number, as [std::format("{}")] writes it. *)
Definition showN (n : N) : string := NilEmpty.string_of_uint (N.to_uint n).

(** Graph.cpp:63-75 [definedPortName]. *)
Definition definedPortName (ps : list DPort) (d : PortDef) : option string :=
  match d with
  | Named n => Some n
  | Idx t sub =>
      match nth_error ps (N.to_nat t) with
      | None => None
      | Some p => match sub with
                  | None => Some (dportName p)
                  | Some s => Some (dportName p ++ "#" ++ showN s)%string
                  end
      end
  end.

(** ** Blocks, edges, graphs *)

(** BlockModel.hpp:75 [Edge::EdgeState]. *)
Inductive EdgeState := Waiting | Connected | Overridden | ErrorConnecting | PortNotFound | IncompatiblePorts | UnknownState.

(** BlockModel.hpp:74-98 [Edge].  [gmin] is [None] for [undefined_size]; [gextra] stands for the memory resources, the
    compute domain and the UI constraints together, 0 being what a new edge has.  The pointers to the resolved ports
    and the actual buffer size are left out. *)
Record GEdge := mkGEdge {
  gsrc : nat; gsrcPort : PortDef; gdst : nat; gdstPort : PortDef;
  gmin : option N; gweight : Z; gename : string; gextra : nat; gstate : EdgeState }.

(** BlockModel.hpp:154-159 [Edge::operator==]. *)
Definition gedgeEq (a b : GEdge) : bool :=
  Nat.eqb (gsrc a) (gsrc b) && Nat.eqb (gdst a) (gdst b) && portEq (gsrcPort a) (gsrcPort b) && portEq (gdstPort a) (gdstPort b).

(** Graph.hpp:230-240 [PortNameMapper] with the key of the multimap it is kept in. *)
Record Export := mkExport { xblk : nat; xint : string; xext : string }.

(** BlockModel.hpp:185-, Graph.hpp:222-353: identity, name, ports, and for a sub-graph its blocks, edges and the two
    bookkeeping multimaps, as lists; [ggroup] says whether [graph()] gives a graph. *)
Inductive GBlock := GB (gid : nat) (gname : string) (gins gouts : list DPort)
  (ggroup : bool) (gsub : list GBlock) (gsubEdges : list GEdge) (gbookIn gbookOut : list Export).

Definition gid (b : GBlock) := match b with GB i _ _ _ _ _ _ _ _ => i end. (** member access *)
Definition gname (b : GBlock) := match b with GB _ n _ _ _ _ _ _ _ => n end. (** member access *)
Definition gins (b : GBlock) := match b with GB _ _ i _ _ _ _ _ _ => i end. (** member access *)
Definition gouts (b : GBlock) := match b with GB _ _ _ o _ _ _ _ _ => o end. (** member access *)
Definition ggroup (b : GBlock) := match b with GB _ _ _ _ g _ _ _ _ => g end. (** member access *)
Definition gsub (b : GBlock) := match b with GB _ _ _ _ _ k _ _ _ => k end. (** member access *)
Definition gsubEdges (b : GBlock) := match b with GB _ _ _ _ _ _ e _ _ => e end. (** member access *)
Definition gbookIn (b : GBlock) := match b with GB _ _ _ _ _ _ _ x _ => x end. (** member access *)
Definition gbookOut (b : GBlock) := match b with GB _ _ _ _ _ _ _ _ x => x end. (** member access *)

(** Graph.hpp:364-372 [_blocks], [_edges]. *)
Record GGraph := mkGraph { gblocks : list GBlock; gedges : list GEdge }.

(** Port.hpp [PortDirection]. *)
Inductive Dir := DIn | DOut.

Definition dirEq (a b : Dir) : bool := match a, b with DIn, DIn | DOut, DOut => true | _, _ => false end. (** comparison *)

(** Graph.hpp:347-349 choice between input and output ports. *)
Definition portsOf (d : Dir) (b : GBlock) : list DPort := match d with DIn => gins b | DOut => gouts b end.

(** Graph.hpp:131-138 [graph::findBlock] by unique name. *)
Fixpoint findB (i : nat) (bs : list GBlock) : option GBlock :=
  match bs with [] => None | b :: r => if Nat.eqb (gid b) i then Some b else findB i r end.

(** Graph.hpp:446-448 [containsEdge]. *)
Definition containsEdge (es : list GEdge) (e : GEdge) : bool := existsb (fun x => gedgeEq x e) es.

(** Graph.hpp:450-457 [addEdge], the refusal being ignored by the callers below. *)
Definition addEdge (es : list GEdge) (e : GEdge) : list GEdge := if containsEdge es e then es else es ++ [e].

(** Graph.hpp:102 [defaultMinBufferSize]. *)
Definition defaultMinBufferSize (arith : bool) : N := if arith then 65536 else 64.

(** Graph.hpp:563-580 [connect]: the new edge; [arith] tells of a physical port whether its type is a number type.  The
    ports of the source block decide the default size; nothing is checked. *)
Definition connectEdge (arith : nat -> bool) (bs : list GBlock) (s : nat) (sp : PortDef) (d : nat) (dp : PortDef)
    (mn : option N) (w : Z) (nm : string) : GEdge :=
  let a := match findB s bs with
           | Some b => match resolve (gouts b) sp with Some p => arith p | None => true end
           | None => true
           end in
  mkGEdge s sp d dp (Some (match mn with Some n => n | None => defaultMinBufferSize a end)) w nm 0 Waiting.

(** ** Exporting *)

(** Graph.hpp:343-351 [findExportedPortInfo]. *)
Definition isExported (book : list Export) (i : nat) (int : string) : bool :=
  existsb (fun x => Nat.eqb (xblk x) i && String.eqb (xint x) int) book.

(** The first element satisfying a test taken out: [erase] of a found iterator. *)
Fixpoint dropFirst {A} (f : A -> bool) (l : list A) : list A :=
  match l with [] => [] | x :: r => if f x then r else x :: dropFirst f r end.

Definition withIn (b : GBlock) (ps : list DPort) (bk : list Export) : GBlock := (** Graph.hpp:265-268 writes to the input side *)
  match b with GB i n _ o g k e _ y => GB i n ps o g k e bk y end.

Definition withOut (b : GBlock) (ps : list DPort) (bk : list Export) : GBlock := (** Graph.hpp:265-268 writes to the output side *)
  match b with GB i n p _ g k e x _ => GB i n p ps g k e x bk end.

Definition bookOf (d : Dir) (b : GBlock) : list Export := match d with DIn => gbookIn b | DOut => gbookOut b end. (** Graph.hpp:265 *)

Definition withSide (d : Dir) (b : GBlock) (ps : list DPort) (bk : list Export) : GBlock := (** Graph.hpp:265-266 *)
  match d with DIn => withIn b ps bk | DOut => withOut b ps bk end.

(** Graph.hpp:254-285 [exportPort].  The block after the call and whether it succeeded. *)
Definition exportPort (flag : bool) (g : GBlock) (i : nat) (d : Dir) (int ext : string) : GBlock * bool :=
  let book := bookOf d g in
  if Bool.eqb (isExported book i int) flag then (g, false)
  else match findB i (gsub g) with
       | None => (g, false)
       | Some b =>
           match portFromName (portsOf d b) int with
           | None => (g, false)
           | Some p =>
               if flag then (withSide d g (portsOf d g ++ [One ext p]) (book ++ [mkExport i int ext]), true)
               else
                 let same := fun x => Nat.eqb (xblk x) i && String.eqb (xint x) int in
                 match find same book with
                 | None => (g, false)
                 | Some x =>
                     let bk := dropFirst same book in
                     if existsb (fun q => String.eqb (dportName q) (xext x)) (portsOf d g)
                     then (withSide d g (dropFirst (fun q => String.eqb (dportName q) (xext x)) (portsOf d g)) bk, true)
                     else (withSide d g (portsOf d g) bk, false)
                 end
           end
       end.

(** ** Grouping *)

(** Graph.cpp:85-92 [PortExport]. *)
Record PExport := mkPExport { pblk : GBlock; pdir : Dir; pint : string; pext : string }.

(** Graph.cpp:102: is this exported name taken in this direction? *)
Definition isTaken (ops : list PExport) (d : Dir) (cand : string) : bool :=
  existsb (fun o => dirEq (pdir o) d && String.eqb (pext o) cand) ops.

(** Graph.cpp:104-106: the loop over suffixes.  The fuel is enough, see the proofs. *)
Fixpoint suffixLoop (taken : string -> bool) (stem : string) (k : N) (fuel : nat) : string :=
  let cand := (stem ++ "_" ++ showN k)%string in
  match fuel with
  | O => cand
  | S f => if taken cand then suffixLoop taken stem (N.succ k) f else cand
  end.

(** Graph.cpp:103-106 the exported name. *)
Definition exportName (ops : list PExport) (b : GBlock) (d : Dir) (int : string) : string :=
  let stem := (gname b ++ "." ++ int)%string in
  if isTaken ops d stem then suffixLoop (isTaken ops d) stem 1 (List.length ops) else stem.

(** Graph.cpp:96-109 [findOrCreateExport]. *)
Definition findOrCreateExport (ops : list PExport) (b : GBlock) (d : Dir) (int : string) : list PExport * string :=
  match find (fun o => Nat.eqb (gid (pblk o)) (gid b) && dirEq (pdir o) d && String.eqb (pint o) int) ops with
  | Some o => (ops, pext o)
  | None => let ext := exportName ops b d int in (ops ++ [mkPExport b d int ext], ext)
  end.

(** Graph.cpp:83 [isGrouped]. *)
Definition grouped (targets : list GBlock) (i : nat) : bool := existsb (fun b => Nat.eqb (gid b) i) targets.

(** Graph.cpp:111-115 [CrossingEdge]. *)
Record Crossing := mkCrossing { cedge : GEdge; cname : string; cfromInside : bool }.

(** Graph.cpp:116-133: internal edges, crossing edges and the exports they need; an undefined port is an error. *)
Fixpoint plan (targets : list GBlock) (ops : list PExport) (es : list GEdge) : option (list PExport * list GEdge * list Crossing) :=
  match es with
  | [] => Some (ops, [], [])
  | e :: r =>
      let s := grouped targets (gsrc e) in
      let t := grouped targets (gdst e) in
      if s && t then
        match plan targets ops r with Some (o, i, c) => Some (o, e :: i, c) | None => None end
      else if s || t then
        let side := if s then DOut else DIn in
        match findB (if s then gsrc e else gdst e) targets with
        | None => None (* not reached: one end is among the targets *)
        | Some b =>
            match definedPortName (portsOf side b) (if s then gsrcPort e else gdstPort e) with
            | None => None
            | Some int =>
                let '(ops', ext) := findOrCreateExport ops b side int in
                match plan targets ops' r with
                | Some (o, i, c) => Some (o, i, mkCrossing e ext s :: c)
                | None => None
                end
            end
        end
      else plan targets ops r
  end.

(** Graph.cpp:159-163: the exports in turn, the first failure ends it. *)
Fixpoint exportAll (g : GBlock) (ops : list PExport) : option GBlock :=
  match ops with
  | [] => Some g
  | o :: r => match exportPort true g (gid (pblk o)) (pdir o) (pint o) (pext o) with
              | (g', true) => exportAll g' r
              | (_, false) => None
              end
  end.

(** Graph.cpp:166-178: the edge that replaces a crossing one. *)
Definition recross (arith : nat -> bool) (bs : list GBlock) (sid : nat) (c : Crossing) : GEdge :=
  let e := cedge c in
  if cfromInside c
  then connectEdge arith bs sid (Named (cname c)) (gdst e) (gdstPort e) (gmin e) (gweight e) (gename e)
  else connectEdge arith bs (gsrc e) (gsrcPort e) sid (Named (cname c)) (gmin e) (gweight e) (gename e).

(** Graph.cpp:78-184 [groupBlocks].  [known]: whether the type name of the sub-graph can be instantiated; [sid], [nm]:
    identity and name of the new block.  Result: the identity of the new block if it succeeded, and the graph after. *)
Definition groupBlocks (arith : nat -> bool) (known : bool) (sid : nat) (nm : string) (targets : list GBlock) (g : GGraph)
  : option nat * GGraph :=
  match targets with
  | [] => (None, g)
  | _ =>
      match plan targets [] (gedges g) with
      | None => (None, g)
      | Some (ops, internal, crossing) =>
          if negb known then (None, g)
          else
            let es := filter (fun e => negb (grouped targets (gsrc e) || grouped targets (gdst e))) (gedges g) in
            let bs := filter (fun b => negb (grouped targets (gid b))) (gblocks g) in
            let sub := GB sid nm [] [] true targets (fold_left addEdge internal []) [] [] in
            match exportAll sub ops with
            | None => (None, mkGraph bs es)
            | Some sub' =>
                let bs' := bs ++ [sub'] in
                (Some sid, mkGraph bs' (es ++ map (recross arith bs' sid) crossing))
            end
      end
  end.

(** ** Ungrouping *)

(** Graph.cpp:203-231 [mapExternalNameToPort] and the lookup in it at 261-262.  An empty exported name is left out; of two
    equal ones the first met stays.  The order of the property map they are met in is that of the bookkeeping here; the
    theorems ask for distinct exported names, where it does not matter. *)
Definition lookupExport (book : list Export) (ext : string) : option Export :=
  if String.eqb ext "" then None else find (fun x => String.eqb (xext x) ext) book.

(** Graph.cpp:211-214: every exporting block must be in the sub-graph. *)
Definition exportersKnown (kids : list GBlock) (book : list Export) : bool :=
  forallb (fun x => match findB (xblk x) kids with Some _ => true | None => false end) book.

(** Graph.cpp:253-268 and 281-293 for one edge: where it now starts. *)
Definition unSource (sub : GBlock) (e : GEdge) : option GEdge :=
  if Nat.eqb (gsrc e) (gid sub) then
    match definedPortName (gouts sub) (gsrcPort e) with
    | None => None
    | Some ext => match lookupExport (gbookOut sub) ext with
                  | None => None
                  | Some x => Some (mkGEdge (xblk x) (Named (xint x)) (gdst e) (gdstPort e) (gmin e) (gweight e) (gename e) 0 Waiting)
                  end
    end
  else Some e.

(** The same for the destination; the lookup concerns the edge as it was. *)
Definition unDest (sub : GBlock) (e : GEdge) : option GEdge :=
  if Nat.eqb (gdst e) (gid sub) then
    match definedPortName (gins sub) (gdstPort e) with
    | None => None
    | Some ext => match lookupExport (gbookIn sub) ext with
                  | None => None
                  | Some x => Some (mkGEdge (gsrc e) (gsrcPort e) (xblk x) (Named (xint x)) (gmin e) (gweight e) (gename e) 0 Waiting)
                  end
    end
  else Some e.

(** Graph.cpp:249-271, 281-293 for all edges; one failure and nothing is done. *)
Fixpoint unEdges (sub : GBlock) (es : list GEdge) : option (list GEdge) :=
  match es with
  | [] => Some []
  | e :: r =>
      match unSource sub e with
      | None => None
      | Some e1 => match unDest sub e1 with
                   | None => None
                   | Some e2 => match unEdges sub r with Some r' => Some (e2 :: r') | None => None end
                   end
      end
  end.

(** Graph.cpp:186-281 [ungroupBlocks].  The edges of the sub-graph are offered to the graph before the outer ones are
    rewritten in place, so what [addEdge] compares with are the old ones. *)
Definition ungroupBlocks (sub : GBlock) (g : GGraph) : option GGraph :=
  if negb (ggroup sub) then None
  else if negb (exportersKnown (gsub sub) (gbookIn sub) && exportersKnown (gsub sub) (gbookOut sub)) then None
  else match unEdges sub (gedges g) with
       | None => None
       | Some es =>
           let all := fold_left addEdge (gsubEdges sub) (gedges g) in
           let added := skipn (List.length (gedges g)) all in
           Some (mkGraph (filter (fun b => negb (Nat.eqb (gid b) (gid sub))) (gblocks g ++ gsub sub)) (es ++ added))
       end.

(** ** Removing and replacing a block *)

(** The first block of that identity taken out: [_blocks.erase(it)]. *)
Definition eraseB (i : nat) (bs : list GBlock) : list GBlock := dropFirst (fun b => Nat.eqb (gid b) i) bs.

(** Graph.hpp:465-480 [removeBlockByName]. *)
Definition removeBlockByName (i : nat) (g : GGraph) : option GBlock * GGraph :=
  match findB i (gblocks g) with
  | None => (None, g)
  | Some b => (Some b, mkGraph (eraseB i (gblocks g)) (filter (fun e => negb (Nat.eqb (gsrc e) i || Nat.eqb (gdst e) i)) (gedges g)))
  end.

(** Result of a call that may be undefined in C++. *)
Inductive Res (A : Type) := Done (a : A) | Failed (a : A) | Undefined.
Arguments Done {A} a. Arguments Failed {A} a. Arguments Undefined {A}.

(** Graph.cpp:46-54 one edge of the loop in [replaceBlock]. *)
Definition reEnd (old new : nat) (e : GEdge) : GEdge :=
  mkGEdge (if Nat.eqb (gsrc e) old then new else gsrc e) (gsrcPort e)
          (if Nat.eqb (gdst e) old then new else gdst e) (gdstPort e)
          (gmin e) (gweight e) (gename e) (gextra e) (gstate e).

(** Graph.cpp:33-60 [replaceBlock].  [cap] is the capacity of [_blocks]; [addBlock] into a full vector moves the elements,
    and the iterator kept from before is then read and erased through, which is undefined.  [new] is the block made, if any. *)
Definition replaceBlock (cap : nat) (i : nat) (new : option GBlock) (g : GGraph) : Res GGraph :=
  match findB i (gblocks g) with
  | None => Failed g
  | Some _ =>
      match new with
      | None => Failed g
      | Some b =>
          if Nat.leb cap (List.length (gblocks g)) then Undefined
          else Done (mkGraph (eraseB i (gblocks g ++ [b])) (map (reEnd i (gid b)) (gedges g)))
      end
  end.
