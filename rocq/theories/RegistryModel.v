(** Step-level model of the list of reader sequences, shared by threads that register and remove readers.
    Source: /repo/core/include/gnuradio-4.0/Sequence.hpp (SQ), addSequences SQ:88-118 and removeSequence SQ:120-149.
    Thread i works on its own sequence i: it may add it, then remove it, then call remove again.  The list behind the
    shared_ptr is a pair of its contents and the identity of the vector object; a thread holds a shared_ptr to the vector it
    loaded, so the identity of a vector being compared is never reused.  The weak compare-exchange may fail spuriously. *)
From Coq Require Import List ZArith Bool.
From Verif Require Import Base.
Import ListNotations.
Local Open Scope Z_scope.

(** Program counter of a thread.  [l]/[v]: contents and identity of the vector it loaded. *)
Inductive pc :=
| Out                              (* before addSequences *)
| AddCas (l : list nat) (v : Z)    (* SQ:94-109 done, about to compare-exchange (SQ:111) *)
| In                               (* addSequences returned *)
| DelCas (l : list nat) (v : Z)    (* SQ:126-145 done with a non-zero count, about to compare-exchange (SQ:146) *)
| Removed                          (* removeSequence returned true *)
| Again                            (* a second removeSequence returned false *).

Record st := { cont : list nat; ident : Z; thr : list pc }.

(** SQ:126-145: the copy without every occurrence of the sequence. *)
Definition without (l : list nat) (i : nat) : list nat := filter (fun k => negb (Nat.eqb k i)) l.

(** One atomic step of thread [i]; [weak]: the compare-exchange fails spuriously. *)
Definition step (s : st) (a : nat * bool) : st :=
  let (i, weak) := a in
  let put c v p := {| cont := c; ident := v; thr := upd (thr s) i p |} in
  match nth_error (thr s) i with
  | None => s
  | Some p =>
      match p with
      | Out => put (cont s) (ident s) (AddCas (cont s) (ident s))
      | AddCas l v => if negb weak && (ident s =? v) then put (l ++ [i]) (ident s + 1) In else put (cont s) (ident s) Out
      | In => if existsb (Nat.eqb i) (cont s) then put (cont s) (ident s) (DelCas (cont s) (ident s)) else put (cont s) (ident s) Again
      | DelCas l v => if negb weak && (ident s =? v) then put (without l i) (ident s + 1) Removed else put (cont s) (ident s) In
      | Removed => if existsb (Nat.eqb i) (cont s) then put (cont s) (ident s) (DelCas (cont s) (ident s)) else put (cont s) (ident s) Again
      | Again => s
      end
  end.

(** [n] threads, empty list. *)
Definition init (n : nat) : st := {| cont := []; ident := 0; thr := repeat Out n |}.
Definition exec (s : st) (sched : list (nat * bool)) : st := fold_left step sched s.
