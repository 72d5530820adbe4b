(** What a CRC is: the remainder of a long division of bit strings, with initial value, final XOR and bit reflection.
    No tables, no registers, no integers except for the parameters. *)
From Coq Require Import List NArith Bool.
Import ListNotations.

(** The bits of a byte or register, least / most significant first. *)
Definition bitsLSB (w : nat) (x : N) : list bool := map (fun i => N.testbit x (N.of_nat i)) (seq 0 w).
Definition bitsMSB (w : nat) (x : N) : list bool := rev (bitsLSB w x).

(** XOR of a short bit string into the front of a long one. *)
Fixpoint xorFront (s l : list bool) : list bool :=
  match s, l with
  | a :: s', b :: l' => xorb a b :: xorFront s' l'
  | _, [] => []
  | [], l => l
  end.

(** Schoolbook division: [n] quotient digits.  [g] are the divisor's coefficients below its leading one.  When the
    leading digit is one, the divisor is subtracted; then the leading digit is dropped. *)
Fixpoint longdiv (g : list bool) (n : nat) (d : list bool) : list bool :=
  match n, d with
  | S k, b :: r => longdiv g k (if b then xorFront g r else r)
  | _, _ => d
  end.

(** Remainder of message * x^w, the first w digits inverted by the initial value. *)
Definition remainder (w : nat) (g ini msg : list bool) : list bool :=
  longdiv g (length msg) (xorFront ini (msg ++ repeat false w)).

(** The message digits: each byte least significant bit first (reflected algorithms) or most significant first. *)
Definition msgBits (refl : bool) (l : list N) : list bool := flat_map (if refl then bitsLSB 8 else bitsMSB 8) l.

(** Parameters in the usual notation: [norm] is the polynomial with the highest coefficient first. *)
Definition spec_bits (w : nat) (norm ini : N) (refl : bool) (l : list N) : list bool :=
  remainder w (bitsMSB w norm) (bitsMSB w ini) (msgBits refl l).
