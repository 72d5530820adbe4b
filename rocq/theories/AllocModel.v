(** Model of the fixed arena, the aligned STL allocator and the aligned blob allocation.
    Sources: /repo/core/include/gnuradio-4.0/MemoryAllocators.hpp (MA) and ValueMap.hpp (VM).
    Addresses are naturals; arithmetic on them wraps modulo 2^64 as in the code. *)
From Coq Require Import List NArith Bool.
Import ListNotations.
Local Open Scope N_scope.

Definition W64 : N := 2 ^ 64.
(** Unsigned 64-bit addition and subtraction. *)
Definition add64 (a b : N) : N := (a + b) mod W64.
Definition sub64 (a b : N) : N := (a + W64 - b) mod W64.

(** MA:390-392 call std::align; this is the library's function (alignment is a power of two):
    [if (space < size) return nullptr; aligned = (ptr - 1 + align) & -align; diff = aligned - ptr;
     if (diff > space - size) return nullptr; else return aligned;] *)
Definition align (alignment size ptr space : N) : option N :=
  if space <? size then None
  else let aligned := N.ldiff (add64 (sub64 ptr 1) alignment) (alignment - 1) in
       let diff := sub64 aligned ptr in
       if space - size <? diff then None else Some aligned.

(** MA:382-384. *)
Record arena := { data : N; capacity : N; used : N }.
Definition setUsed (a : arena) (u : N) : arena := {| data := data a; capacity := capacity a; used := u |}.
(** MA:408. *)
Definition newArena (d c : N) : arena := {| data := d; capacity := c; used := 0 |}.
(** MA:386-398 do_allocate; [None] is the fatal report (exception or abort). *)
Definition allocate (a : arena) (bytes alignment : N) : arena * option N :=
  if bytes =? 0 then (a, Some (add64 (data a) (used a)))
  else
    let here := add64 (data a) (used a) in
    match align alignment bytes here (sub64 (capacity a) (used a)) with
    | None => (a, None)
    | Some p => (setUsed a (add64 (used a) (add64 (sub64 p here) bytes)), Some p)
    end.
(** MA:400 do_deallocate. *)
Definition deallocate (a : arena) : arena := a.
(** MA:415. *)
Definition available (a : arena) : N := sub64 (capacity a) (used a).
(** MA:417. *)
Definition reset (a : arena) : arena := setUsed a 0.

(** MA:47-51 Aligned<T>::allocate: the size asked from operator new; [None]: nullptr without a request. *)
Definition alignedRequest (n sizeofT : N) : option N :=
  let bytes := (n * sizeofT) mod W64 in if bytes =? 0 then None else Some bytes.

(** VM:2682-2694 _alignedAllocate: the raw request, and for the raw address obtained the aligned address and the byte stored in
    front of it. *)
Definition kBlobAlignment : N := 16.
Definition rawSize (useful : N) : N := useful + kBlobAlignment.
Definition alignedOf (raw : N) : N := N.ldiff (add64 raw kBlobAlignment) (kBlobAlignment - 1).
Definition offsetByte (raw : N) : N := sub64 (alignedOf raw) raw mod 256.
(** VM:2696-2703 _alignedDeallocate: the raw address, from the aligned one and the byte read in front of it. *)
Definition rawOf (aligned byte : N) : N := sub64 aligned byte.
