(* Model of blocks merged at compile time:
   /repo/core/include/gnuradio-4.0/BlockMerging.hpp ("BM" below).

   A block is what its processOne does to its state and one sample of each
   input.  Simplified: all samples have one type; SIMD variants, settings,
   tags and lifecycle are not modelled. *)

From Coq Require Import Arith ZArith List Bool Lia.
Import ListNotations.

Local Open Scope nat_scope.

Section Merge.
Context {X A : Type} (d : A).

(* A block that is not merged: numbers of stream inputs and outputs and
   processOne.  BM:53-54 *)
Record leaf : Type := mkLeaf { nI : nat; nO : nat; fn : X -> list A -> X * list A }.

(* MergeByIndex<Left, OutId, Right, InId>, Left and Right merged blocks or not.
   BM:136-138 *)
Inductive blk : Type := Leaf (b : leaf) | Merge (l : blk) (o : nat) (r : blk) (i : nat).

(* meta::remove_at *)
Definition removeAt {B : Type} (n : nat) (l : list B) : list B := firstn n l ++ skipn (S n) l.

(* Stream inputs and outputs (OverridePortList).  BM:146-154 *)
Fixpoint nIn (t : blk) : nat := match t with Leaf b => nI b | Merge l _ r _ => nIn l + (nIn r - 1) end.
Fixpoint nOut (t : blk) : nat := match t with Leaf b => nO b | Merge l _ r _ => (nOut l - 1) + nOut r end.
(* Number of blocks inside: each has its own state. *)
Fixpoint leaves (t : blk) : nat := match t with Leaf _ => 1 | Merge l _ r _ => leaves l + leaves r end.

(* processOne with apply_left and apply_right; the last branch (BM:280-281)
   as it is meant, it does not compile.  BM:189-202, 255-284 *)
Fixpoint processOne (t : blk) (st : list X) (ins : list A) : list X * list A :=
  match t with
  | Leaf b => match st with
              | x :: _ => let '(x', o) := fn b x ins in ([x'], o)
              | [] => ([], [])
              end
  | Merge l o r i =>
      let '(sl, lo) := processOne l (firstn (leaves l) st) (firstn (nIn l) ins) in
      let rest := skipn (nIn l) ins in
      let '(sr, ro) := processOne r (skipn (leaves l) st) (firstn i rest ++ nth o lo d :: skipn i rest) in
      (sl ++ sr, removeAt o lo ++ ro)
  end.

(* One call for each sample. *)
Fixpoint runs (t : blk) (st : list X) (xs : list (list A)) : list X * list (list A) :=
  match xs with
  | [] => (st, [])
  | x :: r => let '(s, o) := processOne t st x in let '(s', os) := runs t s r in (s', o :: os)
  end.

(* GraphWithPortMaps: the blocks, the edges from output to input, and the ports
   of the outside; a port is the number of the block and of its port.
   BM:13-27 *)
Record net : Type := mkNet { nodes : list leaf; edges : list ((nat * nat) * (nat * nat)); outs : list (nat * nat); inps : list (nat * nat) }.

(* addSubBlock puts the blocks of Right behind those of Left.  BM:40-66 *)
Definition up (n : nat) (p : nat * nat) : nat * nat := (n + fst p, snd p).
(* graphWithPortMaps.  BM:286-316 *)
Fixpoint graphOf (t : blk) : net :=
  match t with
  | Leaf b => mkNet [b] [] (map (pair 0) (seq 0 (nO b))) (map (pair 0) (seq 0 (nI b)))
  | Merge l o r i =>
      let a := graphOf l in
      let b := graphOf r in
      let n := length (nodes a) in
      let ro := map (up n) (outs b) in
      let ri := map (up n) (inps b) in
      mkNet (nodes a ++ nodes b)
            (edges a ++ map (fun e => (up n (fst e), up n (snd e))) (edges b) ++ [(nth o (outs a) (0, 0), nth i ri (0, 0))])
            (removeAt o (outs a) ++ ro) (inps a ++ removeAt i ri)
  end.
End Merge.

Section Feedback.
(* Forward, Feedback and Monitor with their own states. *)
Context {F B N A V : Type} (fwd : F -> list A -> F * A) (fbk : B -> A -> B * A) (mon : N -> A -> N * A).

(* _forward, _feedback, _monitor, _state.  BM:627-631 *)
Record fst_ : Type := mkF { sF : F; sB : B; sN : N; sV : A }.
(* processOne of FeedbackMergeBase; without a monitor [mon] passes the value
   on.  Forward has one output (with several BM:668 does not compile).
   BM:657-673 *)
Definition fbStep (idx : nat) (st : fst_) (ins : list A) : fst_ * A :=
  let '(f, o) := fwd (sF st) (firstn idx ins ++ sV st :: skipn idx ins) in
  let '(n, m) := mon (sN st) o in
  let '(b, v) := fbk (sB st) m in
  (mkF f b n v, o).
(* FeedbackMergeWithTap: the output and _state.  BM:837-847 *)
Definition tapStep (idx : nat) (st : fst_) (ins : list A) : fst_ * (A * A) :=
  let '(s, o) := fbStep idx st ins in (s, (o, sV s)).
End Feedback.

(* One call for each sample, for any step. *)
Fixpoint runM {S I O : Type} (f : S -> I -> S * O) (s : S) (xs : list I) : S * list O :=
  match xs with
  | [] => (s, [])
  | x :: r => let '(s1, o) := f s x in let '(s2, os) := runM f s1 r in (s2, o :: os)
  end.

Section Split.
Context {X A : Type}.
(* signOf.  BM:409-412, 505-514 *)
Definition signOf (signs : list Z) (i : nat) : Z := nth i signs 1%Z.
(* The fold of processOne over the paths, from the right; [i] is the number of
   the first path.  The result type is Z.  BM:466-468, 568-570 *)
Fixpoint sumFrom (signs : list Z) (i : nat) (l : list Z) : Z :=
  match l with
  | [] => 0%Z
  | [v] => (signOf signs i * v)%Z
  | v :: r => (signOf signs i * v + sumFrom signs (S i) r)%Z
  end.
Fixpoint callAll (paths : list (X -> A -> X * Z)) (st : list X) (x : A) : list X * list Z :=
  match paths, st with
  | p :: ps, s :: ss => let '(s1, v) := p s x in let '(r, vs) := callAll ps ss x in (s1 :: r, v :: vs)
  | _, _ => ([], [])
  end.
Definition smcStep (signs : list Z) (paths : list (X -> A -> X * Z)) (st : list X) (x : A) : list X * Z :=
  let '(s, vs) := callAll paths st x in (s, sumFrom signs 0 vs).
End Split.
