(** Model of the reader/writer lock.
    Source: /repo/core/include/gnuradio-4.0/reader_writer_lock.hpp *)
From Coq Require Import List ZArith Bool.
From Verif Require Import Base.
Import ListNotations.
Local Open Scope Z_scope.

(** reader_writer_lock.hpp:11-12, [ReaderWriterLockType]. *)
Inductive kind := READ | WRITE.

(** Where one lock user stands.  A user is one acquisition: a thread holding two locks at once is two users.
    Program points of reader_writer_lock.hpp:31-75. *)
Inductive pc :=
| Idle                           (* no call in progress, nothing held *)
| TryCas (k : kind) (expected : Z)    (* tryLock after the load and the clamp, before compare_exchange (38, 43) *)
| LockCas (k : kind) (expected : Z)   (* lock after the clamp, before compare_exchange (55, 63) *)
| Holding (k : kind).

(** Counter (reader_writer_lock.hpp:24) and users.  Simplified: the 64-bit counter is an integer; it would need
    2^63 simultaneous holders to differ. *)
Record lockst := { cnt : Z; users : list pc }.

(** reader_writer_lock.hpp:34-37, 40-42, 52-54, 60-62. *)
Definition clamp (k : kind) (e : Z) : Z :=
  match k with READ => if e <? 0 then 0 else e | WRITE => if e >? 0 then 0 else e end.

(** reader_writer_lock.hpp:38/55 and 43/63: desired value of the compare_exchange. *)
Definition desired (k : kind) (e : Z) : Z := match k with READ => e + 1 | WRITE => e - 1 end.

(** Client choices: begin tryLock, begin lock, continue a call in progress, unlock. *)
Inductive act := A_try (k : kind) | A_lock (k : kind) | A_cas | A_unlock.

(** One atomic step of user [i]; an action that does not apply at the user's program point leaves everything as is
    (in particular unlock without holding, a client error the lock does not detect). *)
Definition step (s : lockst) (ia : nat * act) : lockst :=
  let (i, a) := ia in
  match nth_error (users s) i, a with
  | Some Idle, A_try k =>            (* 33-37 / 33, 40-42: load and clamp *)
      {| cnt := cnt s; users := upd (users s) i (TryCas k (clamp k (cnt s))) |}
  | Some Idle, A_lock k =>           (* 50-54 / 58-62 *)
      {| cnt := cnt s; users := upd (users s) i (LockCas k (clamp k (cnt s))) |}
  | Some (TryCas k e), A_cas =>      (* 38 / 43: strong compare_exchange; returns whether it succeeded *)
      if cnt s =? e then {| cnt := desired k e; users := upd (users s) i (Holding k) |}
      else {| cnt := cnt s; users := upd (users s) i Idle |}
  | Some (LockCas k e), A_cas =>     (* 55 / 63: on failure [expected] is reloaded, then clamped again *)
      if cnt s =? e then {| cnt := desired k e; users := upd (users s) i (Holding k) |}
      else {| cnt := cnt s; users := upd (users s) i (LockCas k (clamp k (cnt s))) |}
  | Some (Holding READ), A_unlock => (* 71 *)
      {| cnt := cnt s - 1; users := upd (users s) i Idle |}
  | Some (Holding WRITE), A_unlock => (* 73 *)
      {| cnt := cnt s + 1; users := upd (users s) i Idle |}
  | _, _ => s
  end.

(** All interleavings of [n] users: arbitrary lists of (user, action). *)
Definition start (n : nat) : lockst := {| cnt := 0; users := repeat Idle n |}.
Definition run (n : nat) (sched : list (nat * act)) : lockst := fold_left step sched (start n).
