(** Capacity arithmetic of the stream buffer.
    Source: /repo/core/include/gnuradio-4.0/CircularBuffer.hpp *)
From Coq Require Import ZArith.
Local Open Scope Z_scope.

(** CircularBuffer.hpp:299-321, with the page size and the element size as arguments.  Simplified: no overflow of the
    64-bit intermediate values. *)
Definition align_with_page_size (page elem min_elems : Z) (isMmap : bool) : Z :=
  if isMmap then
    let gcd_value := Z.gcd page elem in
    let lcm := (page / gcd_value) * elem in
    let elements_per_lcm := lcm / elem in
    let num_blocks := (min_elems + elements_per_lcm - 1) / elements_per_lcm in
    num_blocks * elements_per_lcm
  else min_elems.

(** CircularBuffer.hpp:329-334: number of constructed elements. *)
Definition buffer_size (size : Z) (isMmap : bool) : Z := if isMmap then size else 2 * size.
