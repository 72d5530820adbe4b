(** What users rely on from the work loop, stated without the loop: the streams fed into a block and the
    stream a block has to produce from them, one chunk after the other. *)
From Coq Require Import List NArith Lia Bool.
From Verif Require Import WorkModel.
Import ListNotations.
Local Open Scope N_scope.

(** Everything that has been fed so far, per input port: samples and tags. *)
Definition fedQ {A T} (n : nat) (es : list (event A T)) : list (list A) :=
  fold_left (fun a e => match e with Feed i xs _ => addAt i xs a | Work _ _ _ => a end) es (repeat [] n).
Definition fedT {A T} (n : nat) (es : list (event A T)) : list (list (tag T)) :=
  fold_left (fun a e => match e with Feed i _ ts => addAt i ts a | Work _ _ _ => a end) es (repeat [] n).

(** Tags in stream order. *)
Fixpoint ascending {T} (ts : list (tag T)) : Prop :=
  match ts with
  | [] => True
  | t :: r => Forall (fun t' => tIdx t <= tIdx t') r /\ ascending r
  end.

(** Producers publish a tag before the sample it belongs to becomes visible, and in order; every call of work
    finds room in the output tag rings.  [F], [G]: fed so far. *)
Fixpoint goodEvents {A T} (nOut : nat) (F : list (list A)) (G : list (list (tag T))) (es : list (event A T)) : Prop :=
  match es with
  | [] => True
  | Feed i xs ts :: r =>
      (i < length F)%nat /\ Forall (fun t => nlen (nth i F []) <= tIdx t) ts /\ ascending (nth i G [] ++ ts)
      /\ goodEvents nOut (addAt i xs F) (addAt i ts G) r
  | Work _ space tr :: r =>
      length space = nOut /\ (length (concat G) <= tr)%nat /\ goodEvents nOut F G r
  end.

(** A port that is synchronous and connected. *)
Definition plain (p : port) : Prop := pSync p = true /\ pConn p = true.

(** The documented configuration rules: chunk sizes are at least one; only Resampling blocks have other chunk sizes
    (Block.hpp:965-975). *)
Definition chunked (c : cfg) : Prop :=
  1 <= ics c < 2 ^ 31 /\ 1 <= ocs c < 2 ^ 31 /\ (resEn c = false -> ics c = 1 /\ ocs c = 1).

(** Number of a chunk whose first sample is the first chunk start at or after stream index [i]. *)
Definition chunkNo (c : cfg) (i : N) : N := (i + ics c - 1) / ics c.

Section Reference.
Context {A B S T : Type}.

(** One chunk: [ics] samples of every input port in, [ocs] samples for every output port out. *)
Variable chunk : S -> list (list A) -> S * list (list B).

(** [m] chunks one after the other. *)
Fixpoint chunks (c : cfg) (m : nat) (s : S) (xs : list (list A)) : S * list (list B) :=
  match m with
  | O => (s, map (fun _ => []) (outP c))
  | Datatypes.S m' =>
      let (s1, o1) := chunk s (map (takeN (ics c)) xs) in
      let (s2, o2) := chunks c m' s1 (map (dropN (ics c)) xs) in
      (s2, zipApp o1 o2)
  end.

(** A processing function that works through whatever whole number of chunks it is given (processOne, or a
    processBulk that uses its spans completely). *)
Definition worksByChunk (c : cfg) (p : S -> list (list A) -> N -> ures B S) : Prop :=
  forall m s xs, length xs = length (inP c) -> Forall (fun x => nlen x = N.of_nat m * ics c) xs ->
    p s xs (N.of_nat m * ocs c) = mkRes (fst (chunks c m s xs)) OK None None (snd (chunks c m s xs)).

(** Every chunk yields [ocs] samples on every output port. *)
Definition chunkShape (c : cfg) : Prop :=
  forall s xs, length (snd (chunk s xs)) = length (outP c)
    /\ Forall (fun o => nlen o = ocs c) (snd (chunk s xs)).

(** First occurrences only: a tag that repeats an earlier one (same index, equal map) is not forwarded again. *)
Fixpoint firstOcc (eq : T -> T -> bool) (seen : list (tag T)) (ts : list (tag T)) : list (tag T) :=
  match ts with
  | [] => []
  | t :: r => if existsb (fun e => (tIdx e =? tIdx t) && eq (tPay e) (tPay t)) seen
              then firstOcc eq seen r else t :: firstOcc eq (seen ++ [t]) r
  end.

(** The tags that belong to chunk [k]. *)
Definition chunkTags (c : cfg) (k : N) (G : list (list (tag T))) : list (list (tag T)) :=
  map (filter (fun t => chunkNo c (tIdx t) =? k)) G.

(** Forwarded tags of one chunk: blocks with one input forward all of them, others the first occurrences. *)
Definition chunkForward (u : ublock A B S T) (s : S) (w : list (list (tag T))) : list T :=
  flat_map (fun t => match fwd u s (tPay t) with Some x => [x] | None => [] end)
           (match w with [ts] => ts | _ => firstOcc (eqT u) [] (concat w) end).

(** Result of the first [k] chunks of the fed streams: apply the tags of the chunk, forward them with the first output
    sample of the chunk, then process the chunk. *)
Fixpoint reference (c : cfg) (u : ublock A B S T) (s0 : S) (F : list (list A)) (G : list (list (tag T))) (k : nat)
  : S * list (list B) * list (N * option T) :=
  match k with
  | O => (s0, map (fun _ => []) (outP c), [])
  | Datatypes.S k' =>
      let '(s, o, ts) := reference c u s0 F G k' in
      let kn := N.of_nat k' in
      let w := chunkTags c kn G in
      let s1 := fold_left (fun s l => fold_left (fun s t => app u s (tPay t)) l s) w s in
      let (s2, o2) := chunk s1 (map (fun f => takeN (ics c) (dropN (kn * ics c) f)) F) in
      (s2, zipApp o o2, ts ++ map (fun x => (kn * ocs c, Some x)) (chunkForward u s1 w))
  end.

(** Strided reading: chunk [j] is the [ics] samples from position [j * stride] of every port. *)
Fixpoint gridRef (c : cfg) (s0 : S) (F : list (list A)) (k : nat) : S * list (list B) :=
  match k with
  | O => (s0, map (fun _ => []) (outP c))
  | Datatypes.S k' =>
      let (s, o) := gridRef c s0 F k' in
      let (s2, o2) := chunk s (map (fun f => takeN (ics c) (dropN (N.of_nat k' * stride c) f)) F) in
      (s2, zipApp o o2)
  end.

End Reference.

(** The number of tags one chunk can bring to a block with several inputs: at most nine. *)
Definition fewTags {T} (c : cfg) (G : list (list (tag T))) : Prop :=
  length (inP c) = 1%nat \/ forall k, (length (concat (chunkTags c k G)) <= 9)%nat.

(** One input port: the tags of the first [k] chunks in stream order, each at the first output sample of its chunk. *)
Definition expectTags {T} (c : cfg) (f : T -> option T) (k : N) (g : list (tag T)) : list (N * option T) :=
  flat_map (fun t => match f (tPay t) with Some x => [(chunkNo c (tIdx t) * ocs c, Some x)] | None => [] end)
           (filter (fun t => chunkNo c (tIdx t) <? k) g).

(** Index of the end-of-stream tag a block sees first, if any. *)
Definition firstEos {T} (G : list (list (tag T))) (e : N) : Prop :=
  (exists ts t, In ts G /\ In t ts /\ tEos t = true /\ tIdx t = e)
  /\ forall ts t, In ts G -> In t ts -> tEos t = true -> e <= tIdx t.
Definition noEos {T} (G : list (list (tag T))) : Prop :=
  forall ts t, In ts G -> In t ts -> tEos t = false.

(** A number of samples that respects a port: what it asks for at least, at most, and what is there. *)
Definition fits (p : port) (avail n : N) : Prop := effMin p <= n <= pMax p /\ n <= avail.

(** A block that really works in chunks with a stride. *)
Definition strided (c : cfg) : Prop :=
  resEn c = true /\ strideActive c = true /\ (ics c <> 1 \/ ocs c <> 1).

(** No end-of-stream tag is ever fed. *)
Definition feedsNoEos {A T} (es : list (event A T)) : Prop :=
  forall i xs ts, In (Feed i xs ts) es -> Forall (fun t => tEos t = false) ts.
