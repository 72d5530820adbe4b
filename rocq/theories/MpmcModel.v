(** Step-level model of the multi-producer buffer: any number of producer threads and reader threads, interleaved one
    atomic access at a time (sequential consistency).
    Sources: /repo/core/include/gnuradio-4.0/ClaimStrategy.hpp (CS), CircularBuffer.hpp (CB).
    The set of readers is fixed (attaching is AttachModel.v, registration RegistryModel.v); memory is double-mapped, so a
    position has one cell; cells hold [option V] with [None] for "never written".
    Simplified: the cursor stops at 2^62 (no wrap of absolute positions). *)
From Coq Require Import List ZArith Bool.
From Verif Require Import Base RingModel.
Import ListNotations.
Local Open Scope Z_scope.

Definition limit : Z := 2 ^ 62.
(** CS:158 initial slot value. *)
Definition slotInit : Z := 2 ^ 64 - 1.

Section Mpmc.
Context {V : Type}.

(** Program counter of a producer: CS:217-236 (tryNext; [next], CS:186-215, repeats it), writing the span, CS:244-270. *)
Inductive pst :=
| PIdle
| PLoadRes (n : Z)                        (* CS:224 about to load the reserve cursor *)
| PCheck (n cur : Z)                      (* CS:226-227 about to load the cached minimum *)
| PScan (n cur : Z) (j : nat) (m : option Z) (* CS:278 about to load the cursor of reader j *)
| PStoreMin (n cur m : Z)                 (* CS:229-230 *)
| PCas (n cur : Z)                        (* CS:234 *)
| PWrite (base n i : Z)                   (* user code: about to write slot i of the span *)
| PMark (base k i : Z)                    (* CS:249-251: about to mark slot i *)
| PLoadPub                                (* CS:256 *)
| PWalk (c nx : Z)                        (* CS:259-261 *)
| PCasPub (c nx : Z).                     (* CS:265 *)

(** Reader: shared cursor, last loaded publish cursor, length of the span it holds. *)
Record rd := { rcur : Z; rseen : Z; rspan : Z }.

(** [mem], [avail], [resv], [pubc], [cmin], reader cursors: shared memory of the code (CS:138-165).
    Ghost fields (never read by the steps): [val p] the value written by the owner of position p, [marked p],
    [log] of reads (reader, position, value), [claims] successful reservations, [holes]: some producer published fewer
    slots than it reserved. *)
Record st := { mem : Z -> option V; avail : Z -> Z; resv : Z; pubc : Z; cmin : Z; rds : list rd; prods : list pst;
               val : Z -> option V; marked : Z -> bool; log : list (nat * Z * option V); claims : list (Z * Z); holes : bool }.

Inductive action :=
| AStart (i : nat) (n : Z)        (* producer i calls tryReserve(n) *)
| AStep (i : nat)                 (* producer i executes its next atomic access *)
| AWrite (i : nat) (v : V)        (* producer i writes its next slot *)
| APublish (i : nat) (k : Z)      (* producer i, all slots written, publishes k of them *)
| ARLoad (r : nat)                (* reader r loads the publish cursor (CB:869) *)
| ARGet (r : nat) (n : Z)         (* CB:839-865 *)
| ARRead (r : nat) (j : Z)        (* reads element j of its span *)
| ARConsume (r : nat) (k : Z).    (* CB:730-759: stores its cursor *)

Definition setf {B} (f : Z -> B) (i : Z) (v : B) : Z -> B := fun j => if j =? i then v else f j.

Definition setp (s : st) (i : nat) (p : pst) : st :=
  {| mem := mem s; avail := avail s; resv := resv s; pubc := pubc s; cmin := cmin s; rds := rds s; prods := upd (prods s) i p;
     val := val s; marked := marked s; log := log s; claims := claims s; holes := holes s |}.
Definition setrd (s : st) (r : nat) (x : rd) : st :=
  {| mem := mem s; avail := avail s; resv := resv s; pubc := pubc s; cmin := cmin s; rds := upd (rds s) r x; prods := prods s;
     val := val s; marked := marked s; log := log s; claims := claims s; holes := holes s |}.

(** One atomic access of producer [i] in state [p]. *)
Definition pstep (N : Z) (s : st) (i : nat) (p : pst) : st :=
  match p with
  | PLoadRes n => setp s i (PCheck n (resv s))
  | PCheck n cur =>
      if N <? wsub (cur + n) (cmin s) then setp s i (PScan n cur 0 None) else setp s i (PCas n cur)
  | PScan n cur j m =>
      match nth_error (rds s) j with
      | Some r => setp s i (PScan n cur (S j) (Some (match m with Some x => Z.min x (rcur r) | None => rcur r end)))
      | None => setp s i (PStoreMin n cur (match m with Some x => x | None => 0 end))
      end
  | PStoreMin n cur m =>
      let s1 := {| mem := mem s; avail := avail s; resv := resv s; pubc := pubc s; cmin := m; rds := rds s; prods := prods s;
                   val := val s; marked := marked s; log := log s; claims := claims s; holes := holes s |} in
      if N <? wsub (cur + n) m then setp s1 i PIdle else setp s1 i (PCas n cur)
  | PCas n cur =>
      if (resv s =? cur) && (cur + n <=? limit)
      then {| mem := mem s; avail := avail s; resv := cur + n; pubc := pubc s; cmin := cmin s; rds := rds s;
              prods := upd (prods s) i (PWrite cur n 0); val := val s; marked := marked s; log := log s;
              claims := (cur, n) :: claims s; holes := holes s |}
      else setp s i (PLoadRes n)
  | PMark base k j =>
      {| mem := mem s; avail := setf (avail s) (calcIndex N (base + j)) (base + j); resv := resv s; pubc := pubc s; cmin := cmin s;
         rds := rds s; prods := upd (prods s) i (if j + 1 <? k then PMark base k (j + 1) else PLoadPub); val := val s;
         marked := setf (marked s) (base + j) true; log := log s; claims := claims s; holes := holes s |}
  | PLoadPub => setp s i (PWalk (pubc s) (pubc s))
  | PWalk c nx =>
      if (nx - c <? N) && (avail s (calcIndex N nx) =? nx) then setp s i (PWalk c (nx + 1))
      else if nx =? c then setp s i PIdle else setp s i (PCasPub c nx)
  | PCasPub c nx =>
      if pubc s =? c
      then {| mem := mem s; avail := avail s; resv := resv s; pubc := nx; cmin := cmin s; rds := rds s; prods := upd (prods s) i PIdle;
              val := val s; marked := marked s; log := log s; claims := claims s; holes := holes s |}
      else setp s i PLoadPub
  | PIdle | PWrite _ _ _ => s
  end.

(** An action that is not enabled leaves the state unchanged. *)
Definition step (N : Z) (s : st) (a : action) : st :=
  match a with
  | AStart i n => match nth_error (prods s) i with
                  | Some PIdle => if (0 <? n) && (n <=? N) then setp s i (PLoadRes n) else s
                  | _ => s end
  | AStep i => match nth_error (prods s) i with Some p => pstep N s i p | None => s end
  | AWrite i v =>
      match nth_error (prods s) i with
      | Some (PWrite base n j) =>
          if j <? n then
            {| mem := setf (mem s) (calcIndex N (base + j)) (Some v); avail := avail s; resv := resv s; pubc := pubc s; cmin := cmin s;
               rds := rds s; prods := upd (prods s) i (PWrite base n (j + 1)); val := setf (val s) (base + j) (Some v);
               marked := marked s; log := log s; claims := claims s; holes := holes s |}
          else s
      | _ => s end
  | APublish i k =>
      match nth_error (prods s) i with
      | Some (PWrite base n j) =>
          if (j =? n) && (0 <=? k) && (k <=? n) then
            {| mem := mem s; avail := avail s; resv := resv s; pubc := pubc s; cmin := cmin s; rds := rds s;
               prods := upd (prods s) i (if k =? 0 then PIdle else PMark base k 0); val := val s; marked := marked s; log := log s;
               claims := claims s; holes := holes s || (k <? n) |}
          else s
      | _ => s end
  | ARLoad r => match nth_error (rds s) r with Some x => setrd s r {| rcur := rcur x; rseen := pubc s; rspan := rspan x |} | None => s end
  | ARGet r n => match nth_error (rds s) r with
                 | Some x => if (0 <=? n) && (n <=? rseen x - rcur x) then setrd s r {| rcur := rcur x; rseen := rseen x; rspan := n |} else s
                 | None => s end
  | ARRead r j =>
      match nth_error (rds s) r with
      | Some x => if (0 <=? j) && (j <? rspan x)
                  then {| mem := mem s; avail := avail s; resv := resv s; pubc := pubc s; cmin := cmin s; rds := rds s; prods := prods s;
                          val := val s; marked := marked s; log := (r, rcur x + j, mem s (calcIndex N (rcur x + j))) :: log s;
                          claims := claims s; holes := holes s |}
                  else s
      | None => s end
  | ARConsume r k =>
      match nth_error (rds s) r with
      | Some x => if (0 <=? k) && (k <=? rseen x - rcur x) then setrd s r {| rcur := rcur x + k; rseen := rseen x; rspan := 0 |} else s
      | None => s end
  end.

(** A new buffer with [nr] readers attached and [np] producers. *)
Definition init (nr np : nat) : st :=
  {| mem := fun _ => None; avail := fun _ => slotInit; resv := 0; pubc := 0; cmin := 0;
     rds := repeat {| rcur := 0; rseen := 0; rspan := 0 |} nr; prods := repeat PIdle np;
     val := fun _ => None; marked := fun _ => false; log := []; claims := []; holes := false |}.

Definition exec (N : Z) (s : st) (sched : list action) : st := fold_left (step N) sched s.

End Mpmc.
Arguments st : clear implicits.
Arguments action : clear implicits.
