(** What the byte image of a property map promises. *)
From Coq Require Import List NArith Bool.
From Verif Require Import WireModel ChunkModel ValueMapModel BlobModel ValueMapSpec.
Import ListNotations.
Local Open Scope N_scope.

(** Scalars, complex numbers, strings and the empty value: neither tensors (container type 3) nor maps (4). *)
Definition plainItem (i : item) : Prop := match i with Empty => True | Item vt ct _ _ => vt <= 15 /\ ct <> 3 /\ ct <> 4 end.
(** A nested map. *)
Definition nestedItem (i : item) : Prop := match i with Empty => False | Item vt ct _ _ => vt = 15 /\ ct = 4 end.

(** An access that stays inside the [n] bytes at address [a].  [slack]: by how much scalars may exceed it.  Decoding must end. *)
Definition inside (slack a n : N) (x : access) : Prop :=
  match x with
  | Read o k => a <= o /\ o + k <= a + n
  | Scalar o k => a <= o /\ o + k <= a + n + slack
  | Fill _ _ => True
  | Stuck => False
  end.
(** Storage that is filled is large enough. *)
Definition fits (x : access) : Prop := match x with Fill c k => k <= c | _ => True end.

(** Bytes of a header and of an entry, and bytes put at an address. *)
Definition hdrBytes (count ecap total po used pcap free : N) : list N :=
  [71; 82; 52; 77; 1; 0] ++ enc 2 count ++ enc 2 ecap ++ [0; 0] ++ enc 4 total ++ enc 4 po ++ enc 4 used ++ enc 4 pcap ++ enc 4 free.
Definition entBytes (off pl key vt fl : N) : list N := enc 4 off ++ enc 4 pl ++ enc 2 key ++ [vt; fl] ++ zeros 36.
Definition place (l : list N) (a : N) : memory := wr (fun _ => 0) a l.
