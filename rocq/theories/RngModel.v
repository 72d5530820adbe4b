(* Model of the generator of random numbers:
   /repo/algorithm/include/gnuradio-4.0/algorithm/rng/Xoshiro256pp.hpp ("XO").

   Words of 64 bits are numbers of N; results in floating point are given by
   their numerators over 2^53 (double) or 2^24 (float), which they are exactly. *)

From Coq Require Import NArith ZArith Bool Lia List.
Import ListNotations.

Local Open Scope N_scope.

(* std::uint64_t: sum, product and shift drop what does not fit.  XO:23 *)
Definition w64 (x : N) : N := N.land x (N.ones 64).
Definition add (a b : N) : N := w64 (a + b).
Definition mul (a b : N) : N := w64 (a * b).
Definition shl (x k : N) : N := w64 (N.shiftl x k).
(* std::rotl.  XO:41, 48 *)
Definition rotl (x k : N) : N := N.lor (shl x k) (N.shiftr x (64 - k)).

(* splitMix64: the step of the counter and what is returned.  XO:95-100 *)
Definition gamma : N := 11400714819323198485.
Definition mix (x : N) : N :=
  let z1 := mul (N.lxor x (N.shiftr x 30)) 13787848793156543929 in
  let z2 := mul (N.lxor z1 (N.shiftr z1 27)) 10723151780598845931 in
  N.lxor z2 (N.shiftr z2 31).
Definition splitMix (x : N) : N * N := let x1 := add x gamma in (x1, mix x1).

(* _state: the four words.  XO:27 *)
Record xs : Type := mkX { a0 : N; a1 : N; a2 : N; a3 : N }.
(* seed.  XO:32-38 *)
Definition seed (v : N) : xs :=
  let '(x1, w0) := splitMix v in
  let '(x2, w1) := splitMix x1 in
  let '(x3, w2) := splitMix x2 in
  let '(_, w3) := splitMix x3 in mkX w0 w1 w2 w3.

(* next.  XO:40-51 *)
Definition next (s : xs) : xs * N :=
  let result := add (rotl (add (a0 s) (a3 s)) 23) (a0 s) in
  let t := shl (a1 s) 17 in
  let s2 := N.lxor (a2 s) (a0 s) in
  let s3 := N.lxor (a3 s) (a1 s) in
  let s1 := N.lxor (a1 s) s2 in
  let s0 := N.lxor (a0 s) s3 in
  (mkX s0 s1 (N.lxor s2 t) (rotl s3 45), result).

(* fillRaw: n numbers.  XO:83-92 *)
Fixpoint fill (s : xs) (n : nat) : xs * list N :=
  match n with
  | O => (s, [])
  | S k => let '(s1, r) := next s in let '(s2, rs) := fill s1 k in (s2, r :: rs)
  end.

(* toUniform01 for double and float, over 2^53 and 2^24.  XO:55-62 *)
Definition uniform64 (raw : N) : N := N.shiftr raw 11.
Definition uniform32 (raw : N) : N := N.shiftr raw 40.

(* toUniformM11 for double and float, over 2^53 and 2^24: twice the number in
   [0, 1) minus one, which has no digit to round.  XO:64-67 *)
Definition uniformM64 (raw : N) : Z := (2 * Z.of_N (uniform64 raw) - 2 ^ 53)%Z.
Definition uniformM32 (raw : N) : Z := (2 * Z.of_N (uniform32 raw) - 2 ^ 24)%Z.
