(* Model of saving a graph to a map and loading one from it:
   /repo/core/include/gnuradio-4.0/Graph_yaml_importer.hpp ("GY"),
   /repo/core/src/BlockModel.cpp ("BM"), /repo/core/include/gnuradio-4.0/Graph.hpp ("GR").

   Simplified: the text between the maps (Yaml, C123-C131) and what a block
   does with its settings (Sett, C113-C122) are not part of it: a block has the
   settings it was loaded with.  Blocks are numbered by their place in the
   graph.  Sizes are size_t of 64 bits. *)

From Coq Require Import ZArith Bool Lia String List.
Import ListNotations.

Local Open Scope string_scope.
Local Open Scope Z_scope.

(* pmt::Value, as far as the loader distinguishes: integers of three types,
   real numbers, strings, tensors of values and maps. *)
Inductive nty : Type := I64 | U32 | U64 | Real.
Inductive val : Type :=
| VNum (t : nty) (z : Z) | VStr (s : string) | VList (l : list val) | VMap (m : list (string * val)).
Definition vmap : Type := list (string * val).

(* property_map::find. *)
Fixpoint look {A : Type} (k : string) (m : list (string * A)) : option A :=
  match m with [] => None | (k', v) :: r => if String.eqb k k' then Some v else look k r end.

(* PortDefinition: index, index pair or name.  GY:399-412 *)
Inductive pdef : Type := PIdx (i : Z) | PSub (i j : Z) | PName (s : string).

(* Edge with its EdgeParameters.  GR:103-104 *)
Record edge : Type := mkE { eS : nat; eSP : pdef; eD : nat; eDP : pdef; eMin : Z; eW : Z; eN : string }.
(* graph::defaultWeight, graph::defaultEdgeName.  GR:103-104 *)
Definition defW : Z := 0.
Definition defN : string := "unnamed edge".
(* gr::undefined_size, the largest size_t.  /repo/meta/include/gnuradio-4.0/meta/utils.hpp:65 *)
Definition undef : Z := 2 ^ 64 - 1.

(* A normal block: type, name, settings, and settings of contexts (context,
   time, settings); a sub-graph: name, content and exported ports (unique
   block name, is input, internal and exported names).  BM:24-39, 94-135 *)
Inductive blk : Type :=
| Normal (ty nm : string) (ps : vmap) (cx : list (string * Z * vmap))
| Sub (nm : string) (bs : list blk) (es : list edge) (ex : list (string * bool * vmap)).
Definition graph : Type := (list blk * list edge)%type.

(* BlockModel::name. *)
Definition nameOf (b : blk) : string := match b with Normal _ nm _ _ => nm | Sub nm _ _ _ => nm end.

(* writePortDefinition; an index is cast to int64.  GY:398-413 *)
Definition savePort (p : pdef) : val :=
  match p with
  | PIdx i => VNum I64 i
  | PSub i j => VList [VNum I64 i; VNum I64 j]
  | PName s => VStr s
  end.

(* One connection: names, ports, and the size as uint32 unless undefined.  GY:394-426 *)
Definition saveEdge (names : list string) (e : edge) : val :=
  VList ([VStr (nth (eS e) names ""); savePort (eSP e); VStr (nth (eD e) names ""); savePort (eDP e)]
         ++ (if eMin e =? undef then [] else [VNum U32 (eMin e mod 2 ^ 32)]))%list.

(* Settings of a context.  BM:29-37 *)
Definition saveCtx (c : string * Z * vmap) : val :=
  VMap [("context", VStr (fst (fst c))); ("context_time", VNum U64 (snd (fst c))); ("parameters", VMap (snd c))].

(* One entry of exported_ports.  BM:112-117 *)
Definition saveExport (x : string * bool * vmap) : val :=
  VList [VStr (fst (fst x)); VStr (if snd (fst x) then "INPUT" else "OUTPUT"); VMap (snd x)].

(* serializeBlock; unique name, category, meta information, ports and the
   scheduler of a managed sub-graph are left out.  BM:42-58, 93-135 *)
Fixpoint saveBlock (b : blk) : val :=
  match b with
  | Normal ty nm ps cx =>
    VMap [("id", VStr ty); ("name", VStr nm); ("parameters", VMap ps); ("ctx_parameters", VList (map saveCtx cx))]
  | Sub nm bs es ex =>
    VMap [("id", VStr "SUBGRAPH"); ("name", VStr nm);
          ("graph", VMap [("blocks", VList (map saveBlock bs));
                          ("connections", VList (map (saveEdge (map nameOf bs)) es));
                          ("exported_ports", VList (map saveExport ex))])]
  end.

(* saveGraphToMap.  GY:379-431 *)
Definition saveGraph (g : graph) : vmap :=
  [("blocks", VList (map saveBlock (fst g))); ("connections", VList (map (saveEdge (map nameOf (fst g))) (snd g)))].

(* value_or(std::string_view{}). *)
Definition asStr (v : val) : option string := match v with VStr s => Some s | _ => None end.

(* getProperty<std::string>(block, "parameters", "name").  GY:56-73, 102 *)
Definition getName (m : vmap) : option string :=
  match look "parameters" m with
  | Some (VMap p) => match look "name" p with Some v => asStr v | None => None end
  | _ => None
  end.

(* One entry of ctx_parameters; the short keys are left out.  GY:243-273 *)
Definition loadCtx (v : val) : option (string * Z * vmap) :=
  match v with
  | VMap m =>
    match look "context" m, look "context_time" m, look "parameters" m with
    | Some (VStr c), Some (VNum U64 t), Some (VMap p) => if String.eqb c "" then None else Some (c, t, p)
    | _, _, _ => None
    end
  | _ => None
  end.

(* All of a list, or the first error. *)
Fixpoint all {A B : Type} (f : A -> option B) (l : list A) : option (list B) :=
  match l with
  | [] => Some []
  | x :: r => match f x with
              | None => None
              | Some y => match all f r with None => None | Some ys => Some (y :: ys) end
              end
  end.

(* One block.  [known] says which types the loader can create, [sub] loads the
   rest of a sub-graph; activateContext succeeds.  GY:95-282 *)
Definition loadBlock (known : string -> bool) (sub : string -> vmap -> option blk) (m : vmap) : option blk :=
  match getName m with
  | None => None
  | Some nm =>
    match look "id" m with
    | Some (VStr ty) =>
      if String.eqb ty "SUBGRAPH" then sub nm m
      else if known ty then
        let ps := match look "parameters" m with Some (VMap p) => p | _ => [] end in
        match look "ctx_parameters" m with
        | None => Some (Normal ty nm ps [])
        | Some (VList l) => match all loadCtx l with None => None | Some cx => Some (Normal ty nm ps cx) end
        | Some _ => None
        end
      else None
    | _ => None
    end
  end.

(* Entries that are not maps are skipped.  GY:95-99 *)
Fixpoint mapsOf (l : list val) : list vmap :=
  match l with [] => [] | VMap m :: r => m :: mapsOf r | _ :: r => mapsOf r end.

(* A field that is missing or no tensor counts as empty.  GY:87-93, 284-290 *)
Definition field (k : string) (m : vmap) : list val :=
  match look k m with Some (VList l) => l | _ => [] end.

(* createdBlocks: a later block of the same name replaces the earlier one.  GY:85, 201, 210, 280, 309 *)
Fixpoint created (k : nat) (nm : string) (names : list string) (acc : option nat) : option nat :=
  match names with
  | [] => acc
  | n :: r => created (S k) nm r (if String.eqb nm n then Some k else acc)
  end.

(* Safe conversion to int64; the real numbers and uint64 are taken as not convertible.  GY:315 *)
Definition asI64 (v : val) : option Z :=
  match v with VNum I64 z => Some z | VNum U32 z => Some z | _ => None end.

(* The port of parseBlockPort.  GY:314-342 *)
Definition loadPort (v : val) : option pdef :=
  match v with
  | VList l => match all asI64 l with
               | Some [i; j] => if (0 <=? i) && (0 <=? j) then Some (PSub i j) else None
               | _ => None
               end
  | VStr s => Some (PName s)
  | VNum I64 i => if 0 <=? i then Some (PIdx i) else None
  | _ => None
  end.

(* The block of parseBlockPort.  GY:305-312 *)
Definition loadEnd (names : list string) (v : val) : option nat :=
  match v with VStr s => if String.eqb s "" then None else created 0 s names None | _ => None end.

(* The fifth element as size_t.  GY:359-368 *)
Definition loadSize (v : val) : Z :=
  match v with VNum Real _ => undef | VNum _ z => z mod 2 ^ 64 | _ => undef end.

(* connect; [dflt] is the default size for the source port.  GR:564-580 *)
Definition connect (dflt : nat -> pdef -> Z) (s : nat) (sp : pdef) (d : nat) (dp : pdef) (m : Z) : edge :=
  mkE s sp d dp (if m =? undef then dflt s sp else m) defW defN.

(* One connection.  GY:292-374 *)
Definition loadEdge (dflt : nat -> pdef -> Z) (names : list string) (v : val) : option edge :=
  match v with
  | VList (a :: b :: c :: d :: r) =>
    match loadEnd names a, loadPort b, loadEnd names c, loadPort d with
    | Some s, Some sp, Some t, Some tp =>
      Some (connect dflt s sp t tp (match r with [] => undef | x :: _ => loadSize x end))
    | _, _, _, _ => None
    end
  | _ => None
  end.

(* loadGraphFromMap into an empty graph.  GY:84-377 *)
Definition loadGraph (known : string -> bool) (sub : string -> vmap -> option blk) (dflt : nat -> pdef -> Z)
  (m : vmap) : option graph :=
  match all (loadBlock known sub) (mapsOf (field "blocks" m)) with
  | None => None
  | Some bs =>
    match all (loadEdge dflt (map nameOf bs)) (field "connections" m) with
    | None => None
    | Some es => Some (bs, es)
    end
  end.

(* The fields of an exported port: block, direction, internal and exported name.  GY:133-147 *)
Definition loadExport (v : val) : option (string * bool * string * string) :=
  match v with
  | VList [a; b; c; d] =>
    match asStr a, asStr b, asStr c, asStr d with
    | Some x, Some y, Some z, Some w => Some (x, String.eqb y "INPUT", z, w)
    | _, _, _, _ => None
    end
  | _ => None
  end.
