(** What the chunk pool and the chunk-backed payload store promise.  Blocks are pairs (address, size). *)
From Coq Require Import List NArith Bool.
From Verif Require Import WireModel ChunkModel.
Import ListNotations.
Local Open Scope N_scope.

Definition block := (N * N)%type.
Definition block_dec : forall x y : block, {x = y} + {x <> y}.
Proof. decide equality; apply N.eq_dec. Defined.
Definition disjoint (x y : block) : Prop := fst x + snd x <= fst y \/ fst y + snd y <= fst x.
Definition inside (a n : N) (x : block) : Prop := fst x <= a /\ a + n <= fst x + snd x.
Definition sameIn (x : block) (m m' : memory) : Prop := forall a, fst x <= a < fst x + snd x -> m' a = m a.

(** The upstream resource, seen from outside: the blocks it has given and not got back.  An answer to a request is good when it
    is not null, fits the address space and overlaps no block given before and not returned. *)
Fixpoint drop (x : block) (l : list block) : list block :=
  match l with [] => [] | y :: r => if block_dec x y then r else y :: drop x r end.
Definition goodAnswer (a n : N) (owned : list block) : Prop := 0 < a /\ a + n <= 2 ^ 64 /\ Forall (disjoint (a, n)) owned.
Fixpoint upstream (owned : list block) (l : list upcall) : list block :=
  match l with [] => owned | UpAlloc a n :: r => upstream ((a, n) :: owned) r | UpFree a n :: r => upstream (drop (a, n) owned) r end.
(** Calls the upstream resource may receive while [held] is in use: it gets back only blocks it gave, with the size it gave
    them, each once, and none that is in use. *)
Fixpoint callsOk (owned held : list block) (l : list upcall) : Prop :=
  match l with
  | [] => True
  | UpAlloc a n :: r => callsOk ((a, n) :: owned) held r
  | UpFree a n :: r => In (a, n) owned /\ Forall (disjoint (a, n)) held /\ callsOk (drop (a, n) owned) held r
  end.

(** ** Histories of a pool *)
Inductive poolOp :=
| Acquire (up : N) | AcquireBig (bytes up : N)
| Release (c : block) | ReleaseBig (c : block)
| Reclaim (keep : N)
| Write (a : N) (l : list N).           (** a client writes into a block it holds *)
Record poolSys := { pl : pool; pm : memory; owned : list block; held : list block }.
Definition empty (c : block) : bool := snd c =? 0.
(** What the callers and the upstream resource must respect. *)
Definition poolLegal (s : poolSys) (o : poolOp) : Prop :=
  match o with
  | Acquire up => goodAnswer up (chunkBytes (pl s)) (owned s)
  | AcquireBig bytes up => 0 < bytes /\ goodAnswer up bytes (owned s)
  | Release c => In c (held s) /\ snd c = chunkBytes (pl s)
  | ReleaseBig c => In c (held s)
  | Reclaim _ => True
  | Write a l => exists c, In c (held s) /\ inside a (len l) c
  end.
(** The operation's answer, its calls to the upstream resource and the new state; [None] is undefined behaviour. *)
Definition poolDo (s : poolSys) (o : poolOp) : option (poolSys * block * list upcall) :=
  let mk p m h l := {| pl := p; pm := m; owned := upstream (owned s) l; held := h |} in
  let give c := if empty c then held s else c :: held s in
  match o with
  | Acquire up => let '(p, c, l) := acquire (pl s) (pm s) up in Some (mk p (pm s) (give c) l, c, l)
  | AcquireBig bytes up => let '(p, c, l) := acquireOversized (pl s) bytes up in Some (mk p (pm s) (give c) l, c, l)
  | Release c => let (p, m) := release (pl s) (pm s) c in Some (mk p m (drop c (held s)) [], (0, 0), [])
  | ReleaseBig c => let (p, l) := releaseOversized (pl s) c in Some (mk p (pm s) (drop c (held s)) l, (0, 0), l)
  | Reclaim keep => match reclaim keep (pl s) (pm s) with Some (p, l) => Some (mk p (pm s) (held s) l, (0, 0), l) | None => None end
  | Write a l => Some (mk (pl s) (wr (pm s) a l) (held s) [], (0, 0), [])
  end.
Inductive poolReach (cb mx : N) : poolSys -> Prop :=
| pool_new m : poolReach cb mx {| pl := newPool cb mx; pm := m; owned := []; held := [] |}
| pool_step s o s' c l : poolReach cb mx s -> poolLegal s o -> poolDo s o = Some (s', c, l) -> poolReach cb mx s'.

(** ** Histories of a chunk-backed buffer whose pool may be shared

    The descriptor ring is the one of C01; here it is its publish position, the readers' positions and, per descriptor, the
    span of its payload ([recs]: position, address, bytes that were stored). *)
Record sys := {
  sb : buffer; sp : pool; sm : memory; sow : list block;
  soth : list block;                    (** blocks of the shared pool in use elsewhere *)
  pub : N; nres : N; nextPos : N; readers : list N; recs : list (N * N * list N);
  top : N }.                            (** one above the highest position a payload was stored for *)

(** CircularBuffer.hpp:963-969 min_reader_position. *)
Definition minReader (l : list N) : N := match l with [] => 0 | r :: rs => fold_left N.min rs r end.

Inductive action :=
| Reserve (n : N) | Store (i : N) (blob : list N) (up : N) | Publish (k : N)
| Attach | Detach (i : nat) | Consume (i : nat) (k : N)
| House (deep : bool)
| Other (o : poolOp).

Definition others (s : sys) : poolSys := {| pl := sp s; pm := sm s; owned := sow s; held := soth s |}.
Definition upd (i : nat) (x : N) (l : list N) : list N := firstn i l ++ x :: skipn (S i) l.
Definition posOf (r : N * N * list N) : N := fst (fst r).

(** What clients respect: payloads are stored in the order of their elements, within the reservation. *)
Definition legal (s : sys) (a : action) : Prop :=
  match a with
  | Reserve n => pub s + n < 2 ^ 64
  | Store i blob up => i < nres s /\ nextPos s <= pub s + i /\ (forall n, n = chunkBytes (sp s) \/ n = 24 + len blob -> goodAnswer up n (sow s))
  | Publish k => k <= nres s
  | Attach | House _ => True
  | Detach i => (i < length (readers s))%nat
  | Consume i k => exists r, nth_error (readers s) i = Some r /\ r + k <= pub s
  | Other o => poolLegal (others s) o
  end.

(** [None] is undefined behaviour.  Also the calls to the upstream resource. *)
Definition exec (s : sys) (a : action) : option (sys * list upcall) :=
  let ring' tp b p m l pu nr nx rd rc :=
    ({| sb := b; sp := p; sm := m; sow := upstream (sow s) l; soth := soth s; pub := pu; nres := nr; nextPos := nx; readers := rd; recs := rc; top := tp |}, l) in
  let ring := ring' (top s) in
  let below q := filter (fun r => posOf r <? q) (recs s) in
  match a with
  | Reserve n => Some (ring (sb s) (sp s) (sm s) [] (pub s) n (pub s) (readers s) (below (pub s)))
  | Store i blob up =>
      let pos := pub s + i in
      let '(b, p, m, c, l) := serialiseBlob (sb s) (sp s) (sm s) blob pos up in
      let kept := filter (fun r => negb (posOf r =? pos)) (recs s) in
      Some (ring' (N.max (top s) (pos + 1)) b p m l (pub s) (nres s) pos (readers s) (if snd c =? len blob then (pos, fst c, blob) :: kept else kept))
  | Publish k => Some (ring (sb s) (sp s) (sm s) [] (pub s + k) 0 (pub s + k) (readers s) (below (pub s + k)))
  | Attach => Some (ring (sb s) (sp s) (sm s) [] (pub s) (nres s) (nextPos s) (readers s ++ [pub s]) (recs s))
  | Detach i => Some (ring (sb s) (sp s) (sm s) [] (pub s) (nres s) (nextPos s) (firstn i (readers s) ++ skipn (S i) (readers s)) (recs s))
  | Consume i k => match nth_error (readers s) i with
                   | Some r => Some (ring (sb s) (sp s) (sm s) [] (pub s) (nres s) (nextPos s) (upd i (r + k) (readers s)) (recs s))
                   | None => None
                   end
  | House deep => match houseKeeping (length (sow s)) deep (minReader (readers s)) (sb s) (sp s) (sm s) with
                  | Some (b, p, m, l) => Some (ring b p m l (pub s) (nres s) (nextPos s) (readers s) (recs s))
                  | None => None
                  end
  | Other o => match poolDo (others s) o with
               | Some (q, _, l) => Some ({| sb := sb s; sp := pl q; sm := pm q; sow := owned q; soth := held q; pub := pub s; nres := nres s; nextPos := nextPos s; readers := readers s; recs := recs s; top := top s |}, l)
               | None => None
               end
  end.

Inductive reach (keep cb mx : N) : sys -> Prop :=
| reach_new m : reach keep cb mx {| sb := newBuffer keep cb; sp := newPool cb mx; sm := m; sow := []; soth := []; pub := 0; nres := 0; nextPos := 0; readers := []; recs := []; top := 0 |}
| reach_step s a s' l : reach keep cb mx s -> legal s a -> exec s a = Some (s', l) -> reach keep cb mx s'.

(** A payload is needed while its element is being written or some attached reader has not consumed it. *)
Definition needed (s : sys) (pos : N) : Prop := pub s <= pos \/ exists r, In r (readers s) /\ r <= pos.
