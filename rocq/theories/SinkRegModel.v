(* Model of the registry in which the sinks are found by the name of their
   signal: /repo/blocks/basic/include/gnuradio-4.0/basic/DataSink.hpp
   ("DS" below).  Lookup by the name of the block (DS:345-359) is not modelled. *)

From Coq Require Import Arith List Bool Lia.
Import ListNotations.

Local Open Scope nat_scope.

(* A sink: its C++ type, its setting signal_name (0: empty) and _registered.
   DS:517, 525, 1066, 1070 *)
Record srec : Type := mkS { sTy : nat; sSig : nat; sReg : bool }.

(* The sinks by number, _sinks, _sink_by_signal_name (DS:165-166), and whether
   the process was terminated. *)
Record rst : Type := mkR { env : nat -> srec; sinks : list nat; byName : list (nat * nat); dead : bool }.

(* Bookkeeping: the settings and flag of one sink. *)
Definition setRec (i : nat) (r : srec) (e : nat -> srec) : nat -> srec := fun j => if j =? i then r else e j.

(* std::map: find, contains, erase. *)
Fixpoint look (n : nat) (m : list (nat * nat)) : option nat :=
  match m with [] => None | (k, v) :: r => if k =? n then Some v else look n r end.
Definition contains (n : nat) (m : list (nat * nat)) : bool := match look n m with Some _ => true | None => false end.
Definition erase (n : nat) (m : list (nat * nat)) : list (nat * nat) := filter (fun e => negb (fst e =? n)) m.

(* Every operation says whether it returned (true) or threw (false). *)

(* registerSink.  DS:169-184 *)
Definition registerSink (i : nat) (st : rst) : rst * bool :=
  let r := env st i in
  if sReg r || (sSig r =? 0) then (st, true)
  else if contains (sSig r) (byName st) then (st, false)
  else (mkR (setRec i (mkS (sTy r) (sSig r) true) (env st)) (sinks st ++ [i]) ((sSig r, i) :: byName st) (dead st), true).

(* unregisterSink: any_cast on a reference throws for a sink of another type
   (DS:190).  DS:186-195 *)
Definition unregisterSink (i : nat) (st : rst) : rst * bool :=
  let r := env st i in
  if existsb (fun j => negb (sTy (env st j) =? sTy r)) (sinks st) then (st, false)
  else (mkR (setRec i (mkS (sTy r) (sSig r) false) (env st)) (filter (fun j => negb (j =? i)) (sinks st))
            (erase (sSig r) (byName st)) (dead st), true).

(* updateSignalName.  DS:197-215 *)
Definition updateSignalName (i old new : nat) (st : rst) : rst * bool :=
  if old =? 0 then (st, false)
  else if new =? 0 then (st, false)
  else if contains new (byName st) then (st, false)
  else (mkR (env st) (sinks st) ((new, i) :: erase old (byName st)) (dead st), true).

(* settingsChanged after signal_name became [n].  DS:529-537, 1074-1083 *)
Definition setName (i n : nat) (st : rst) : rst * bool :=
  let r := env st i in
  let st1 := mkR (setRec i (mkS (sTy r) n (sReg r)) (env st)) (sinks st) (byName st) (dead st) in
  if sSig r =? 0 then registerSink i st1
  else if negb (sSig r =? n) && sReg r then updateSignalName i (sSig r) n st1
  else (st1, true).

(* stop is noexcept: an exception inside ends the process.  DS:607-614, 1110-1117 *)
Definition stop (i : nat) (st : rst) : rst * bool :=
  match unregisterSink i st with
  | (st', true) => (st', true)
  | (st', false) => (mkR (env st') (sinks st') (byName st') true, false)
  end.

(* find by signal name and type.  DS:333-344 *)
Definition findSig (n ty : nat) (st : rst) : option nat :=
  match look n (byName st) with
  | Some j => if sTy (env st j) =? ty then Some j else None
  | None => None
  end.

Inductive rop : Type := SetName (i n : nat) | Stop (i : nat).
Definition rstep (st : rst) (o : rop) : rst * bool :=
  match o with SetName i n => setName i n st | Stop i => stop i st end.
Definition rrun (st : rst) (ops : list rop) : rst := fold_left (fun s o => fst (rstep s o)) ops st.

(* Sinks of the given types, none named yet. *)
Definition rst0 (ty : nat -> nat) : rst := mkR (fun i => mkS (ty i) 0 false) [] [] false.
