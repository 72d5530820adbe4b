(** Step-level model of the single-producer buffer: one writer thread, reader threads that attach and detach at run time,
    interleaved one atomic access at a time (sequential consistency).
    Sources: /repo/core/include/gnuradio-4.0/ClaimStrategy.hpp (CS), CircularBuffer.hpp (CB), Sequence.hpp (SQ).
    Memory is double-mapped, so a position has one cell; cells hold [option V] with [None] for "never written".
    A list snapshot behind a shared_ptr is a version number (a snapshot being compared is kept alive by its shared_ptr, so
    its address is not reused).  Simplified: the cursor stops at 2^62 (no wrap of absolute positions). *)
From Coq Require Import List ZArith Bool.
From Verif Require Import Base RingModel.
Import ListNotations.
Local Open Scope Z_scope.

Definition spLimit : Z := 2 ^ 62.

Section Sp.
Context {V : Type}.

(** Program counter of a reader object: its constructor (CB:787-796 with SQ:88-118), its life, its destructor
    (CB:819-825 with SQ:120-149). *)
Inductive phase :=
| RNew                     (* SQ:94 about to load the reader list *)
| RLoaded (v : Z)          (* SQ:103-107 about to load the publish cursor and store it into the new sequence *)
| RCur (v : Z)             (* SQ:111 about to compare-exchange the list *)
| RReg                     (* SQ:113 about to load the publish cursor again *)
| RReg2 (c : Z)            (* SQ:116 about to store it *)
| RSet                     (* CB:793 about to bump the generation *)
| RBump                    (* CB:795 about to read back its own cursor *)
| RLive
| RDel                     (* SQ:126 about to load the reader list *)
| RDelCas (v : Z)          (* SQ:146 *)
| RDelBump                 (* CB:822 *)
| RGone.

(** Reader: the shared cursor (_readIndex), its private copy (_readIndexCached), the last loaded publish cursor, the length
    of the span it holds. *)
Record rdr := { cur : Z; loc : Z; seen : Z; span : Z; ph : phase }.

(** Program counter of the writer thread: CS:75-83 with CS:97-112, writing the span, CS:87-94. *)
Inductive wst :=
| WIdle
| WGen (n : Z)                            (* CS:98 about to load the generation *)
| WReload (n g : Z)                       (* CS:100-103 about to load the reader list *)
| WScan (n : Z) (j : nat) (m : option Z)  (* CS:106 / CS:111 about to load the cursor of the j-th cached reader *)
| WWrite (base n i : Z).                  (* user code: about to write slot i of the span *)

(** [mem], [pub], [regs]/[ver] (reader list and its identity), [gen], reader cursors: shared memory.  [res], [cgen],
    [clist]: private to the writer (CS:38-52).  Ghost (never read by the steps): [val p] the last value written at
    position p, [log] of reads (reader, position, value). *)
Record st := { mem : Z -> option V; pub : Z; res : Z; regs : list nat; ver : Z; gen : Z; cgen : Z; clist : list nat; w : wst;
               rds : list rdr; val : Z -> option V; log : list (nat * Z * option V) }.

Inductive action :=
| WStart (n : Z)             (* tryReserve(n) *)
| WStep                      (* next atomic access of the writer inside tryNext *)
| WPut (v : V)               (* writes the next slot of the span *)
| WPublish (k : Z)           (* all slots of the first k written: publishes k *)
| RStep (r : nat)            (* next step of the constructor / destructor of reader r; on a live reader without a span: start detaching *)
| RLoad (r : nat)            (* CB:869 *)
| RGet (r : nat) (n : Z)     (* CB:839-865 *)
| RRead (r : nat) (j : Z)
| RConsume (r : nat) (k : Z). (* CB:730-759 *)

Definition fset {B} (f : Z -> B) (i : Z) (v : B) : Z -> B := fun j => if j =? i then v else f j.

Definition setw (s : st) (x : wst) : st :=
  {| mem := mem s; pub := pub s; res := res s; regs := regs s; ver := ver s; gen := gen s; cgen := cgen s; clist := clist s; w := x;
     rds := rds s; val := val s; log := log s |}.
Definition setr (s : st) (r : nat) (x : rdr) : st :=
  {| mem := mem s; pub := pub s; res := res s; regs := regs s; ver := ver s; gen := gen s; cgen := cgen s; clist := clist s; w := w s;
     rds := upd (rds s) r x; val := val s; log := log s |}.
Definition setph (x : rdr) (p : phase) : rdr := {| cur := cur x; loc := loc x; seen := seen x; span := span x; ph := p |}.
Definition setcur (x : rdr) (c : Z) (p : phase) : rdr := {| cur := c; loc := loc x; seen := seen x; span := span x; ph := p |}.

(** CS:75-85 once the minimum is known. *)
Definition decide (N : Z) (s : st) (n m : Z) : st :=
  if wsub N (wsub (res s) m) <? n then setw s WIdle
  else if res s + n <=? spLimit
       then {| mem := mem s; pub := pub s; res := res s + n; regs := regs s; ver := ver s; gen := gen s; cgen := cgen s; clist := clist s;
               w := WWrite (res s) n 0; rds := rds s; val := val s; log := log s |}
       else setw s WIdle.

(** One atomic access of the writer inside tryNext. *)
Definition wstep (N : Z) (s : st) : st :=
  match w s with
  | WGen n => if gen s =? cgen s then setw s (WScan n 0 None) else setw s (WReload n (gen s))
  | WReload n g =>
      {| mem := mem s; pub := pub s; res := res s; regs := regs s; ver := ver s; gen := gen s; cgen := g; clist := regs s;
         w := WScan n 0 None; rds := rds s; val := val s; log := log s |}
  | WScan n j m =>
      match nth_error (clist s) j with
      | Some id => match nth_error (rds s) id with
                   | Some x => setw s (WScan n (S j) (Some (match m with Some y => Z.min y (cur x) | None => cur x end)))
                   | None => s
                   end
      | None => decide N s n (match m with Some x => x | None => 0 end)
      end
  | WIdle | WWrite _ _ _ => s
  end.

(** List update by compare-exchange (SQ:88-118, SQ:120-149). *)
Definition setlist (s : st) (l : list nat) (r : nat) (x : rdr) : st :=
  {| mem := mem s; pub := pub s; res := res s; regs := l; ver := ver s + 1; gen := gen s; cgen := cgen s; clist := clist s; w := w s;
     rds := upd (rds s) r x; val := val s; log := log s |}.
Definition bump (s : st) (r : nat) (x : rdr) : st :=
  {| mem := mem s; pub := pub s; res := res s; regs := regs s; ver := ver s; gen := gen s + 1; cgen := cgen s; clist := clist s; w := w s;
     rds := upd (rds s) r x; val := val s; log := log s |}.

Definition rstep (s : st) (r : nat) (x : rdr) : st :=
  match ph x with
  | RNew => setr s r (setph x (RLoaded (ver s)))
  | RLoaded v => setr s r (setcur x (pub s) (RCur v))
  | RCur v => if ver s =? v then setlist s (regs s ++ [r]) r (setph x RReg) else setr s r (setph x RNew)
  | RReg => setr s r (setph x (RReg2 (pub s)))
  | RReg2 c => setr s r (setcur x c RSet)
  | RSet => bump s r (setph x RBump)
  | RBump => setr s r {| cur := cur x; loc := cur x; seen := cur x; span := 0; ph := RLive |}
  | RLive => if span x =? 0 then setr s r (setph x RDel) else s
  | RDel => setr s r (setph x (RDelCas (ver s)))
  | RDelCas v => if ver s =? v then setlist s (filter (fun k => negb (Nat.eqb k r)) (regs s)) r (setph x RDelBump) else setr s r (setph x RDel)
  | RDelBump => bump s r (setph x RGone)
  | RGone => s
  end.

(** Reader r, if it is live. *)
Definition live (s : st) (r : nat) : option rdr :=
  match nth_error (rds s) r with Some x => match ph x with RLive => Some x | _ => None end | None => None end.

(** An action that is not enabled leaves the state unchanged. *)
Definition step (N : Z) (s : st) (a : action) : st :=
  match a with
  | WStart n => match w s with WIdle => if (0 <? n) && (n <=? N) then setw s (WGen n) else s | _ => s end
  | WStep => wstep N s
  | WPut v =>
      match w s with
      | WWrite base n i =>
          if i <? n then
            {| mem := fset (mem s) (calcIndex N (base + i)) (Some v); pub := pub s; res := res s; regs := regs s; ver := ver s; gen := gen s;
               cgen := cgen s; clist := clist s; w := WWrite base n (i + 1); rds := rds s; val := fset (val s) (base + i) (Some v); log := log s |}
          else s
      | _ => s end
  | WPublish k =>
      match w s with
      | WWrite base n i =>
          if (0 <=? k) && (k <=? i) then
            {| mem := mem s; pub := base + k; res := base + k; regs := regs s; ver := ver s; gen := gen s; cgen := cgen s; clist := clist s;
               w := WIdle; rds := rds s; val := val s; log := log s |}
          else s
      | _ => s end
  | RStep r => match nth_error (rds s) r with Some x => rstep s r x | None => s end
  | RLoad r => match live s r with Some x => setr s r {| cur := cur x; loc := loc x; seen := pub s; span := span x; ph := ph x |} | None => s end
  | RGet r n => match live s r with
                | Some x => if (0 <=? n) && (n <=? seen x - loc x) then setr s r {| cur := cur x; loc := loc x; seen := seen x; span := n; ph := ph x |} else s
                | None => s end
  | RRead r j =>
      match live s r with
      | Some x => if (0 <=? j) && (j <? span x)
                  then {| mem := mem s; pub := pub s; res := res s; regs := regs s; ver := ver s; gen := gen s; cgen := cgen s; clist := clist s;
                          w := w s; rds := rds s; val := val s; log := (r, loc x + j, mem s (calcIndex N (loc x + j))) :: log s |}
                  else s
      | None => s end
  | RConsume r k =>
      match live s r with
      | Some x => if (0 <=? k) && (k <=? seen x - loc x)
                  then setr s r {| cur := loc x + k; loc := loc x + k; seen := seen x; span := 0; ph := ph x |} else s
      | None => s end
  end.

(** A new buffer with [na] readers already attached (their generation bumps not yet seen by the writer) and [nn] reader
    objects whose constructor has not started. *)
Definition init (na nn : nat) : st :=
  {| mem := fun _ => None; pub := 0; res := 0; regs := seq 0 na; ver := 0; gen := Z.of_nat na; cgen := 0; clist := []; w := WIdle;
     rds := repeat {| cur := 0; loc := 0; seen := 0; span := 0; ph := RLive |} na ++ repeat {| cur := 0; loc := 0; seen := 0; span := 0; ph := RNew |} nn;
     val := fun _ => None; log := [] |}.

Definition exec (N : Z) (s : st) (sched : list action) : st := fold_left (step N) sched s.

End Sp.
Arguments st : clear implicits.
Arguments action : clear implicits.
