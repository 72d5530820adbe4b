(* What a user of the selector block relies on, in terms of the list of pairs
   (input, output) given as map_in and map_out, of the samples with the tags
   that sit on them, and of what one call consumed and published. *)

From Coq Require Import Arith List Bool Relations Lia.
From Verif Require Import SelModel.
Import ListNotations.

Local Open Scope nat_scope.

Section Spec.

Context {A T : Type}.

(* every sample with the tags on it *)
Fixpoint annotFrom (k : nat) (l : list A) (ts : list (nat * T)) : list (A * list T) :=
  match l with
  | [] => []
  | x :: l' => (x, map snd (filter (fun t => fst t =? k) ts)) :: annotFrom (S k) l' ts
  end.

Definition annot (sp : span A T) : list (A * list T) := annotFrom 0 (smp sp) (tgs sp).

(* no tag sits behind the published samples *)
Definition tagsInside (sp : span A T) : Prop :=
  Forall (fun t => fst t < length (smp sp)) (tgs sp).

(* the mapping a user wrote *)
Definition pairs (s : sel) : list (nat * nat) := combine (mapIn s) (mapOut s).

Definition peq (p q : nat * nat) : bool := (fst p =? fst q) && (snd p =? snd q).

(* inputs of an output: ascending, and in the order of the mapping *)
Definition sourcesAsc (n : nat) (ps : list (nat * nat)) (o : nat) : list nat :=
  filter (fun i => existsb (peq (i, o)) ps) (seq 0 n).

Definition sources (ps : list (nat * nat)) (o : nat) : list nat :=
  map fst (filter (fun p => snd p =? o) ps).

Definition validPairs (ni no : nat) (ps : list (nat * nat)) : Prop :=
  NoDup ps /\ forall i o, In (i, o) ps -> i < ni /\ o < no.

(* the last change of the mapping was accepted *)
Definition configured (s : sel) : Prop :=
  exists c s0, (cMapIn c <> None \/ cMapOut c <> None)
               /\ settingsChanged c s0 = (s, None).

(* the spans of a call belong to the ports of the block *)
Definition fits (s : sel) (c : call A T) : Prop :=
  length (ins c) = nIn s /\ length (caps c) = nOut s.

Definition consumed (r : result A T) (i : nat) : nat := nth i (rCons r) 0.

(* inputs that share an output, directly or through others *)
Definition share (ps : list (nat * nat)) (i j : nat) : Prop :=
  exists o, In (i, o) ps /\ In (j, o) ps.

Definition linked (ps : list (nat * nat)) : nat -> nat -> Prop :=
  clos_refl_trans nat (share ps).

Definition mapped (ps : list (nat * nat)) (i : nat) : Prop := exists o, In (i, o) ps.

(* outputs are synchronised: the setting is on and some output is combined *)
Definition synchronised (s : sel) : Prop :=
  syncCombined s = true /\ exists o, 2 <= length (sources (pairs s) o).

(* one sample of every row in turn, k rounds *)
Definition roundRobin {X : Type} (k : nat) (rows : list (list X)) : list X :=
  flat_map (fun j => flat_map (fun l => match nth_error l j with
                                        | Some x => [x]
                                        | None => []
                                        end) rows) (seq 0 k).

(* calls one after the other: each input span starts where the consumption of
   the calls before ended in the stream of its input *)
Fixpoint fed (n : nat) (streams : nat -> list (A * list T))
             (h : list (call A T * result A T)) : Prop :=
  match h with
  | [] => True
  | (c, r) :: h' =>
      (forall i, i < n -> exists m, annot (inAt c i) = firstn m (streams i))
      /\ fed n (fun i => skipn (consumed r i) (streams i)) h'
  end.

Definition answered (s : sel) (h : list (call A T * result A T)) : Prop :=
  Forall (fun cr => fits s (fst cr) /\ processBulk s (fst cr) = Some (snd cr)) h.

Definition totalOut (o : nat) (h : list (call A T * result A T)) : list (A * list T) :=
  concat (map (fun cr => annot (rOut (snd cr) o)) h).

Definition totalIn (i : nat) (h : list (call A T * result A T)) : nat :=
  fold_right (fun cr a => consumed (snd cr) i + a) 0 h.

Definition totalMon (h : list (call A T * result A T)) : list (A * list T) :=
  concat (map (fun cr => annot (rMon (snd cr))) h).

End Spec.
