(** What a stream buffer with one writer promises: an append-only list, a pending reservation, and one position per
    reader.  No ring, no index arithmetic, no memory.
    [None]: the caller broke the call contract, or (two documented cases, marked FINDING) hit a defect of the code. *)
From Coq Require Import List ZArith Bool.
From Verif Require Import Base RingModel.
Import ListNotations.
Local Open Scope Z_scope.

Section Spec.
Context {A : Type}.

(** A reader: position in the stream, length of the first get of this round, consume request of this round, elements
    consumed by the last completed round, lengths of the live spans. *)
Record areader := { p_pos : Z; p_first : option Z; p_req : option Z; p_done : Z; p_spans : list Z }.

(** [a_stream]: everything ever published.  [a_pend]: reserved slots, [Some v] once written.  [a_req]: publish
    request so far.  [a_inst]: live copies of the writer span.  [a_fresh]: the writer object has never reserved.
    [a_wm]: how far storage has been recycled. *)
Record aring := { a_stream : list A; a_pend : list (option A); a_req : option Z; a_inst : nat; a_fresh : bool;
                  a_readers : list (option areader); a_wm : Z }.

Definition len {B} (l : list B) : Z := Z.of_nat (length l).
Definition total (a : aring) : Z := len (a_stream a) + len (a_pend a).

Definition positions (a : aring) : list Z :=
  flat_map (fun o => match o with Some r => [p_pos r] | None => [] end) (a_readers a).
Definition slowest (l : list Z) : option Z :=
  match l with [] => None | x :: r => Some (fold_right Z.min x r) end.

(** Free slots: capacity minus what the slowest reader has not consumed and what is reserved.  Without any reader the
    code counts from position 0 and wraps. *)
Definition free (c : config A) (a : aring) : Z :=
  match slowest (positions a) with
  | Some p => cap c - (total a - p)
  | None => (cap c - total a) mod 2 ^ 64
  end.

Definition slice (l : list A) (p n : Z) : list A := firstn (Z.to_nat n) (skipn (Z.to_nat p) l).

(** Recycling: nothing visible happens, except FINDING (C11): if more than one capacity has been published or reserved
    beyond the last recycled position, unread elements may be wiped. *)
Definition arecycle (c : config A) (a : aring) : option aring :=
  match clr c, slowest (positions a) with
  | Some _, Some p =>
      if p <=? a_wm a then Some a
      else if total a <=? a_wm a + cap c
           then Some {| a_stream := a_stream a; a_pend := a_pend a; a_req := a_req a; a_inst := a_inst a; a_fresh := a_fresh a;
                        a_readers := a_readers a; a_wm := p |}
           else None
  | _, _ => Some a
  end.
Definition apressure (c : config A) (a : aring) : option aring :=
  match clr c with
  | Some _ => if free c a <? cap c / 4 then arecycle c a else Some a
  | None => Some a
  end.

Definition aset (a : aring) (st : list A) (pd : list (option A)) (rq : option Z) (inst : nat) (fr : bool) : aring :=
  {| a_stream := st; a_pend := pd; a_req := rq; a_inst := inst; a_fresh := fr; a_readers := a_readers a; a_wm := a_wm a |}.
Definition asetr (a : aring) (i : nat) (r : option areader) : aring :=
  {| a_stream := a_stream a; a_pend := a_pend a; a_req := a_req a; a_inst := a_inst a; a_fresh := a_fresh a;
     a_readers := upd (a_readers a) i r; a_wm := a_wm a |}.
Definition agetr (a : aring) (i : nat) : option areader :=
  match nth_error (a_readers a) i with Some (Some r) => Some r | _ => None end.

(** All elements, if every one of them has been written. *)
Fixpoint written (l : list (option A)) : option (list A) :=
  match l with
  | [] => Some []
  | Some v :: r => match written r with Some x => Some (v :: x) | None => None end
  | None :: _ => None
  end.

Definition aavail (a : aring) (r : areader) : Z := len (a_stream a) - p_pos r.

Definition astep (c : config A) (a : aring) (o : op A) : option (aring * out A) :=
  match o with
  | NewWriter => if Nat.eqb (a_inst a) 0 then Some (aset a (a_stream a) [] (Some 0) 0 true, OUnit) else None
  | Reserve n =>
      if negb (Nat.eqb (a_inst a) 0) || (n <? 0) || (cap c <? n) then None
      else if n =? 0 then Some (aset a (a_stream a) [] None 1 (a_fresh a), OLen 0)
      else match apressure c a with
           | None => None
           | Some a =>
               if free c a <? n then Some (aset a (a_stream a) [] None 1 (a_fresh a), OLen 0)
               else Some (aset a (a_stream a) (repeat None (Z.to_nat n)) None 1 false, OLen n)
           end
  | WriteSpan i v =>
      if (0 <=? i) && (i <? len (a_pend a)) && negb (Nat.eqb (a_inst a) 0)
      then Some (aset a (a_stream a) (upd (a_pend a) (Z.to_nat i) (Some v)) (a_req a) (a_inst a) (a_fresh a), OUnit)
      else None
  | CopySpan => if Nat.eqb (a_inst a) 0 then None else Some (aset a (a_stream a) (a_pend a) (a_req a) (S (a_inst a)) (a_fresh a), OUnit)
  | Publish k =>
      let already := match a_req a with Some q => q | None => 0 end in
      if Nat.eqb (a_inst a) 0 || (k <? 0) || (len (a_pend a) - already <? k) then None
      else Some (aset a (a_stream a) (a_pend a) (Some (already + k)) (a_inst a) (a_fresh a), OUnit)
  | Release p =>
      match a_inst a with
      | O => None
      | S (S k) => Some (aset a (a_stream a) (a_pend a) (a_req a) (S k) (a_fresh a), OUnit)
      | S O =>
          (* FINDING (C09): a writer object that has never reserved anything resets the stream when it releases an
             empty span on a buffer that already carries data *)
          if a_fresh a && negb (len (a_stream a) =? 0) then None
          else match a_req a, p with
               | None, Terminate => None
               | q, _ =>
                   let k := match q, p with Some q, _ => q | None, ProcessAll => len (a_pend a) | None, _ => 0 end in
                   match written (firstn (Z.to_nat k) (a_pend a)) with
                   | None => None      (* publishing a slot that was never written *)
                   | Some vs => Some (aset a (a_stream a ++ vs) [] (Some 0) 0 (a_fresh a), OUnit)
                   end
               end
      end
  | NewReader =>
      Some ({| a_stream := a_stream a; a_pend := a_pend a; a_req := a_req a; a_inst := a_inst a; a_fresh := a_fresh a;
               a_readers := a_readers a ++ [Some {| p_pos := len (a_stream a); p_first := None; p_req := None; p_done := 0; p_spans := [] |}];
               a_wm := a_wm a |}, OId (length (a_readers a)))
  | DropReader i =>
      match agetr a i with
      | Some r => match p_spans r with [] => Some (asetr a i None, OUnit) | _ => None end
      | None => None end
  | Get i n =>
      match agetr a i with
      | None => None
      | Some r =>
          match p_req r with
          | Some _ => None
          | None =>
              let want := match n with Some k => k | None => aavail a r end in
              if (want <? 0) || (aavail a r <? want) then None
              else let l := match p_first r with Some f => Z.min want f | None => want end in
                   let f := match p_first r with Some f => f | None => want end in
                   let d := match p_first r with Some _ => p_done r | None => 0 end in
                   Some (asetr a i (Some {| p_pos := p_pos r; p_first := Some f; p_req := None; p_done := d; p_spans := p_spans r ++ [l] |}), OLen l)
          end
      end
  | CopyRSpan i k =>
      match agetr a i with
      | Some r => match nth_error (p_spans r) k with
                  | Some l => Some (asetr a i (Some {| p_pos := p_pos r; p_first := p_first r; p_req := p_req r; p_done := p_done r; p_spans := p_spans r ++ [l] |}), OUnit)
                  | None => None end
      | None => None end
  | ReadRSpan i k =>
      match agetr a i with
      | Some r => match nth_error (p_spans r) k with
                  | Some l => Some (a, OElems (slice (a_stream a) (p_pos r) l))
                  | None => None end
      | None => None end
  | TryConsume i n =>
      match agetr a i with
      | Some r =>
          match p_spans r with
          | [] => None
          | _ => if n <? 0 then None
                 else match p_req r with
                      | Some _ => Some (a, OBool false)
                      | None => if aavail a r <? n then Some (a, OBool false)
                                else Some (asetr a i (Some {| p_pos := p_pos r; p_first := p_first r; p_req := Some n; p_done := p_done r; p_spans := p_spans r |}), OBool true)
                      end
          end
      | None => None end
  | ReleaseR i k p =>
      match agetr a i with
      | Some r =>
          match nth_error (p_spans r) k with
          | None => None
          | Some _ =>
              match remove_nth (p_spans r) k with
              | x :: l => Some (asetr a i (Some {| p_pos := p_pos r; p_first := p_first r; p_req := p_req r; p_done := p_done r; p_spans := x :: l |}), OUnit)
              | [] =>
                  match (match p_req r, p with
                         | Some n, _ => Some n
                         | None, Terminate => None
                         | None, ProcessAll => p_first r
                         | None, ProcessNone => Some 0
                         end) with
                  | None => None
                  | Some n =>
                      let d := match p_req r with Some q => q | None => if n =? 0 then p_done r else n end in
                      Some (asetr a i (Some {| p_pos := p_pos r + n; p_first := None; p_req := None; p_done := d; p_spans := [] |}), OUnit)
                  end
              end
          end
      | None => None end
  | HouseKeep => match arecycle c a with Some a' => Some (a', OUnit) | None => None end
  | QWriter => Some (a, OW (len (a_stream a)) (free c a))
  | QReader i => match agetr a i with Some r => Some (a, OR (p_pos r) (aavail a r) (p_done r)) | None => None end
  end.

Definition ainit : aring :=
  {| a_stream := []; a_pend := []; a_req := Some 0; a_inst := 0; a_fresh := true; a_readers := []; a_wm := 0 |}.

Fixpoint arun (c : config A) (a : aring) (ops : list (op A)) : option (aring * list (out A)) :=
  match ops with
  | [] => Some (a, [])
  | o :: r => match astep c a o with
              | None => None
              | Some (a1, x) => match arun c a1 r with None => None | Some (a2, xs) => Some (a2, x :: xs) end
              end
  end.

End Spec.
Arguments aring : clear implicits.
