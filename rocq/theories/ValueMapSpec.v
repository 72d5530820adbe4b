(** What a property map promises: it behaves as an insertion-ordered association list. *)
From Coq Require Import List NArith Bool.
From Verif Require Import WireModel ChunkModel ChunkSpec ValueMapModel BlobModel.
Import ListNotations.
Local Open Scope N_scope.

(** ** Values *)
(** The container type that goes with a scalar or string value type. *)
Definition containerOf (vt : N) : N := if vt =? 14 then 2 else if (vt =? 12) || (vt =? 13) then 1 else 0.
(** Values as the C++ types guarantee them; strings contain no zero byte. *)
Definition goodValue (v : value) : Prop :=
  match v with
  | VInline vt ct b => 1 <= vt <= 12 /\ ct = containerOf vt /\ len b = 8
  | VWide b => len b = 16
  | VMap _ => True
  | VString s => ~ In 0 s
  | VTensor _ _ => True
  | VRecord vt ct fl c => ct = 3 \/ (ct = 4 /\ vt = 15) \/ (ct = containerOf vt /\ fl = 0)
  | VMono => True
  end.
(** Content is padded with zeros so that content and 8 byte prefix fill multiples of 16 bytes. *)
Definition padded (c : list N) : list N := c ++ repeat 0 (N.to_nat ((16 - (8 + len c) mod 16) mod 16)).
(** What a reader must see after a value was stored. *)
Definition shown (v : value) : item :=
  match v with
  | VInline vt ct b => Item vt ct 0 b
  | VWide b => Item 13 1 0 (padded b)
  | VMap blob => Item 15 4 0 (padded blob)
  | VString s => Item 14 2 0 s
  | VTensor vt blob => Item vt 3 16 (padded blob)
  | VRecord vt ct fl c => Item vt ct fl (if (vt =? 14) && (ct =? 2) then trim c else padded c)
  | VMono => Empty
  end.

(** ** Association lists *)
Definition smap := list (key * item).
Fixpoint assoc (k : key) (s : smap) : option item :=
  match s with [] => None | (k', v) :: r => if list_eq_dec N.eq_dec k' k then Some v else assoc k r end.
Fixpoint replace (k : key) (v : item) (s : smap) : smap :=
  match s with [] => [] | (k', v') :: r => if list_eq_dec N.eq_dec k' k then (k', v) :: r else (k', v') :: replace k v r end.
Fixpoint without (k : key) (s : smap) : smap :=
  match s with [] => [] | (k', v') :: r => if list_eq_dec N.eq_dec k' k then r else (k', v') :: without k r end.

(** ** Operations *)
Inductive op :=
| OEmplace (k : key) (v : value) (alias : bool)
| OAssign (k : key) (v : value) (alias : bool)
| OErase (k : key)
| OClear
| OReserve (n payload : N)
| OShrink.
Definition exec (m : vmap) (o : op) : res (vmap * outcome) :=
  match o with
  | OEmplace k v al => emplace m k v al
  | OAssign k v al => insertOrAssign m k v al
  | OErase k => bind (erase m k) (fun r => Ok (fst r, if snd r then Existing else Refused))
  | OClear => bind (clear m) (fun m' => Ok (m', Existing))
  | OReserve n p => bind (reserve m n p) (fun m' => Ok (m', Existing))
  | OShrink => bind (shrinkToFit m) (fun m' => Ok (m', Existing))
  end.
(** What the operation must do to the association list. *)
Definition apply (s : smap) (o : op) : smap :=
  match o with
  | OEmplace k v _ => match assoc k s with Some _ => s | None => s ++ [(k, shown v)] end
  | OAssign k v _ => match assoc k s with Some _ => replace k (shown v) s | None => s ++ [(k, shown v)] end
  | OErase k => without k s
  | OClear => []
  | OReserve _ _ | OShrink => s
  end.
(** A refused operation changes nothing. *)
Definition after (s : smap) (o : op) (r : outcome) : smap := match r with Refused => s | _ => apply s o end.
(** The answer is the right one: insertion is reported exactly for absent keys. *)
Definition answers (s : smap) (o : op) (r : outcome) : Prop :=
  match o with
  | OEmplace k _ _ | OAssign k _ _ => match r with Inserted => assoc k s = None | Existing => assoc k s <> None | Refused => True end
  | OErase k => match r with Existing => assoc k s <> None | Refused => assoc k s = None | Inserted => False end
  | _ => r = Existing
  end.
(** Bytes that a value and an operation bring. *)
Definition weight (v : value) : N :=
  match v with VInline _ _ b | VWide b | VMap b | VTensor _ b | VRecord _ _ _ b => len b | VString s => len s + 1 | VMono => 0 end.
Definition bytesOfOp (o : op) : N := match o with OEmplace k v _ | OAssign k v _ => len k + weight v | _ => 0 end.
(** Long keys: neither canonical nor short enough for the entry. *)
Definition longKey (k : key) : Prop := lookupId k = 0 /\ 34 < len k.
(** Room for one more key: fewer than 65535 keys, for a long key fewer than 43690. *)
Definition room (s : smap) (k : key) : Prop := len s < 65535 /\ (longKey k -> len s < 43690).
(** What callers must respect: good values, room, no insertion of a new key whose value lies in this map's own bytes, and no
    assignment of the empty value to a key that is present. *)
Definition legal (s : smap) (o : op) : Prop :=
  match o with
  | OEmplace k v al => goodValue v /\ room s k /\ (al = true -> assoc k s <> None)
  | OAssign k v al => goodValue v /\ room s k /\ (al = true -> assoc k s <> None) /\ (v = VMono -> assoc k s = None)
  | _ => True
  end.

(** Maps that a program can have, with the contents they stand for: fresh ones, ones in caller storage, copies, ones read back
    from the bytes of another (at address [a]), and whatever the operations make of them.  [P] restricts the operations used. *)
Inductive reachBy (P : op -> Prop) : vmap -> smap -> Prop :=
| reach_new n p jk m : allocateBlob n p jk = Ok m -> reachBy P m []
| reach_at size n p jk m : makeAt size n p jk = Some m -> reachBy P m []
| reach_copy m s jk : reachBy P m s -> reachBy P (copyOf m jk) s
| reach_assign d sd m s : reachBy P d sd -> reachBy P m s -> fixed d = false -> fixed m = false -> reachBy P (assignMap d m) s
| reach_blob m s a jk m' : reachBy P m s -> fromBlob (blobImage m a) a (blobSize m) jk = Some m' -> reachBy P m' s
| reach_step m s o m' r : reachBy P m s -> P o -> legal s o -> exec m o = Ok (m', r) -> reachBy P m' (after s o r).
Definition reach : vmap -> smap -> Prop := reachBy (fun _ => True).
(** Operations that bring no long key. *)
Definition shortKeys (o : op) : Prop := match o with OEmplace k _ _ | OAssign k _ _ => ~ longKey k | _ => True end.

(** ** Storage *)
(** The blocks of the pool that an entry uses: the record of its value and its key if it is long. *)
Definition regs (e : entry) : list block :=
  (if hasOffset (eFlags e) then [(ePOff e, alignToRecord (ePLen e))] else []) ++
  (if eKeyId e =? kSpilledKeyId then [(spillOff e, spillLen e + 1)] else []).
(** The free list, read from the blob: offset and length of each chunk. *)
Fixpoint chunks (fuel : nat) (mm : memory) (cur : N) : list block :=
  match fuel with
  | O => []
  | S f => if cur =? 0 then [] else (cur, dec (rd mm cur 4)) :: chunks f mm (dec (rd mm (cur + 4) 4))
  end.
Definition freeBlocks (m : vmap) : list block := chunks (N.to_nat (cap m)) (mem m) (fhead m).
Definition inPool (m : vmap) (b : block) : Prop := poff m <= fst b /\ fst b + snd b <= poff m + pused m.
