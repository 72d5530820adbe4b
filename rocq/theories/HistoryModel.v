(** Model of gr::HistoryBuffer.  Source: /repo/core/include/gnuradio-4.0/HistoryBuffer.hpp (HB).
    Fixed and dynamic capacity differ only in [ring] (N, or the next power of two) and in whether [Resize] exists.
    [None]: an access outside the allocation, an overlapping copy_n, or a call outside the documented contract. *)
From Coq Require Import List ZArith Bool.
From Verif Require Import Base RingModel.
Import ListNotations.
Local Open Scope Z_scope.

Section Hist.
Context {A : Type}.
(** T(): the value of a fresh element. *)
Variable dflt : A.

(** HB:72-77.  [buf] has 2*[ring] elements (HB:70, HB:120); [dyn]: dynamic extent. *)
Record hb := { buf : Z -> A; capacity : Z; ring : Z; dyn : bool; wp : Z; size : Z; dirty : Z }.

(** std::bit_ceil. *)
Definition bitCeil (n : Z) : Z := 2 ^ Z.log2_up n.

(** HB:90-98: mask when the ring is a power of two, remainder otherwise. *)
Definition map_index (h : hb) (i : Z) : Z := calcIndex (ring h) (wp h + i).

Definition with_buf (h : hb) (b : Z -> A) : hb :=
  {| buf := b; capacity := capacity h; ring := ring h; dyn := dyn h; wp := wp h; size := size h; dirty := dirty h |}.
Definition with_pos (h : hb) (p s d : Z) : hb :=
  {| buf := buf h; capacity := capacity h; ring := ring h; dyn := dyn h; wp := p; size := s; dirty := d |}.

(** Store of one element. *)
Definition put (h : hb) (p : Z) (v : A) : option hb :=
  if (0 <=? p) && (p <? 2 * ring h) then Some (with_buf h (fun q => if q =? p then v else buf h q)) else None.
(** std::copy_n inside the buffer (source and target must not overlap). *)
Definition copy_n (h : hb) (src dst n : Z) : option hb :=
  if (0 <=? src) && (0 <=? dst) && (0 <=? n) && (src + n <=? 2 * ring h) && (dst + n <=? 2 * ring h) && (n <=? Z.abs (dst - src))
  then Some (with_buf h (fun q => if (dst <=? q) && (q <? dst + n) then buf h (src + (q - dst)) else buf h q)) else None.
(** std::copy of a list of values into the buffer. *)
Definition fill (h : hb) (pos : Z) (l : list A) : option hb :=
  if (0 <=? pos) && (pos + Z.of_nat (length l) <=? 2 * ring h)
  then Some (with_buf h (fun q => if (pos <=? q) && (q <? pos + Z.of_nat (length l)) then nth (Z.to_nat (q - pos)) l dflt else buf h q)) else None.

(** HB:100-113. *)
Definition syncMirror (h : hb) : option hb :=
  if dirty h =? 0 then Some h
  else
    let rc := ring h in
    let contiguous := rc - wp h in
    match (if dirty h <=? contiguous then copy_n h (wp h) (wp h + rc) (dirty h)
           else match copy_n h (wp h) (wp h + rc) contiguous with
                | Some h1 => copy_n h1 0 rc (dirty h - contiguous)
                | None => None end) with
    | Some h2 => Some (with_pos h2 (wp h2) (size h2) 0)
    | None => None
    end.

(** HB:120-125 (dynamic) and HB:118 (fixed). *)
Definition newDyn (c : Z) : option hb :=
  if c =? 0 then None
  else Some {| buf := fun _ => dflt; capacity := c; ring := bitCeil c; dyn := true; wp := 0; size := 0; dirty := 0 |}.
Definition newFixed (n : Z) : hb := {| buf := fun _ => dflt; capacity := n; ring := n; dyn := false; wp := 0; size := 0; dirty := 0 |}.

(** HB:130-139. *)
Definition push_front (h : hb) (v : A) : option hb :=
  let s := if size h <? capacity h then size h + 1 else size h in
  let p := map_index h (ring h - 1) in
  match put (with_pos h p s (dirty h)) p v with
  | Some h1 => Some (if dirty h1 <? ring h1 then with_pos h1 (wp h1) (size h1) (dirty h1 + 1) else h1)
  | None => None end.

(** HB:148-150. *)
Fixpoint push_front_all (h : hb) (l : list A) : option hb :=
  match l with [] => Some h | v :: r => match push_front h v with Some h1 => push_front_all h1 r | None => None end end.
(** HB:145-151: only the last [capacity] elements are pushed. *)
Definition push_front_range (h : hb) (l : list A) : option hb :=
  push_front_all h (if capacity h <? Z.of_nat (length l) then skipn (length l - Z.to_nat (capacity h)) l else l).

(** HB:164-179. *)
Definition push_back (h : hb) (v : A) : option hb :=
  let h1 := if size h =? capacity h
            then with_pos h (map_index h 1) (size h) (if 0 <? dirty h then dirty h - 1 else dirty h)
            else with_pos h (wp h) (size h + 1) (dirty h) in
  let ip := map_index h1 (size h1 - 1) in
  match put h1 ip v with Some h2 => put h2 (ip + ring h) v | None => None end.

(** HB:186-222. *)
Definition push_back_range (h : hb) (l0 : list A) : option hb :=
  let rc := ring h in
  let n0 := Z.of_nat (length l0) in
  if n0 =? 0 then Some h
  else
    let l := if capacity h <=? n0 then skipn (length l0 - Z.to_nat (capacity h)) l0 else l0 in
    let n := if capacity h <=? n0 then capacity h else n0 in
    let needed := size h + n in
    let h1 := if capacity h <? needed
              then let discard := needed - capacity h in
                   with_pos h (map_index h discard) (size h - discard) (if 0 <? dirty h then dirty h - Z.min (dirty h) discard else dirty h)
              else h in
    let h2 := with_pos h1 (wp h1) (size h1 + n) (dirty h1) in
    let start := map_index h2 (size h2 - n) in
    let chunk1 := Z.min n (rc - start) in
    match fill h2 start (firstn (Z.to_nat chunk1) l) with
    | None => None
    | Some h3 =>
        match fill h3 (start + rc) (firstn (Z.to_nat chunk1) l) with
        | None => None
        | Some h4 =>
            if 0 <? n - chunk1
            then match fill h4 0 (skipn (Z.to_nat chunk1) l) with
                 | None => None
                 | Some h5 => fill h5 rc (skipn (Z.to_nat chunk1) l) end
            else Some h4
        end
    end.

(** HB:243-252 and HB:264-270; the outer [None] is the exception. *)
Definition pop_front (h : hb) : option hb :=
  if size h =? 0 then None else Some (with_pos h (map_index h 1) (size h - 1) (if 0 <? dirty h then dirty h - 1 else dirty h)).
Definition pop_back (h : hb) : option hb :=
  if size h =? 0 then None else Some (with_pos h (wp h) (size h - 1) (dirty h)).

(** HB:301-325. *)
Definition get (h : hb) (i : Z) : A := buf h (map_index h i).
(** Write through operator[], at(), front(), back(). *)
Definition set (h : hb) (i : Z) (v : A) : option hb := put h (map_index h i) v.

(** The elements of a contiguous physical range, if it lies inside the allocation. *)
Definition range (h : hb) (p n : Z) : option (list A) :=
  if (0 <=? p) && (p + n <=? 2 * ring h) then Some (map (fun k => buf h (p + Z.of_nat k)) (seq 0 (Z.to_nat n))) else None.

(** HB:340-344; the subtraction wraps. *)
Definition get_span (h : hb) (i n : Z) : option (hb * list A) :=
  match syncMirror h with
  | None => None
  | Some h1 =>
      let len := Z.max 0 (Z.min (wsub (size h1) i) n) in
      match range h1 (map_index h1 i) len with Some l => Some (h1, l) | None => None end
  end.
(** HB:358-367: what a loop from begin() to end() visits. *)
Definition iterate (h : hb) : option (hb * list A) :=
  match syncMirror h with
  | None => None
  | Some h1 => match range h1 (wp h1) (size h1) with Some l => Some (h1, l) | None => None end
  end.

(** HB:272-296; a shrinking resize keeps the first elements. *)
Definition resize (h : hb) (c : Z) : option hb :=
  match syncMirror h with
  | None => None
  | Some h1 =>
      let count := Z.min (size h1) c in
      let rc := bitCeil c in
      match range h1 (wp h1) count with
      | None => None
      | Some l =>
          match fill {| buf := fun _ => dflt; capacity := c; ring := rc; dyn := dyn h; wp := 0; size := count; dirty := 0 |} 0 l with
          | None => None
          | Some h2 => copy_n h2 0 rc count
          end
      end
  end.

(** HB:351-356. *)
Definition reset (h : hb) (v : A) : hb :=
  {| buf := fun _ => v; capacity := capacity h; ring := ring h; dyn := dyn h; wp := 0; size := 0; dirty := 0 |}.

Inductive op :=
| PushFront (v : A) | PushBack (v : A) | PushFrontR (l : list A) | PushBackR (l : list A)
| PopFront | PopBack | Resize (c : Z) | Reset (v : A)
| Get (i : Z) | At (i : Z) | Span (i n : Z) | Iterate | Size | SetAt (i : Z) (v : A).
Inductive out := ODone | OThrow | OVal (v : A) | OList (l : list A) | OLen (n c : Z).

Definition lift (o : option hb) : option (hb * out) := match o with Some h => Some (h, ODone) | None => None end.

(** One public call. *)
Definition step (h : hb) (o : op) : option (hb * out) :=
  match o with
  | PushFront v => lift (push_front h v)
  | PushBack v => lift (push_back h v)
  | PushFrontR l => lift (push_front_range h l)
  | PushBackR l => lift (push_back_range h l)
  | PopFront => if size h =? 0 then Some (h, OThrow) else lift (pop_front h)
  | PopBack => if size h =? 0 then Some (h, OThrow) else lift (pop_back h)
  | Resize c => if negb (dyn h) || (c <? 0) then None else if c =? 0 then Some (h, OThrow) else lift (resize h c)
  | Reset v => Some (reset h v, ODone)
  | Get i => if (0 <=? i) && (i <? size h) then Some (h, OVal (get h i)) else None
  | At i => if i <? 0 then None else if size h <=? i then Some (h, OThrow) else Some (h, OVal (get h i))
  | Span i n => if (0 <=? i) && (i <=? size h) && (0 <=? n)
                then match get_span h i n with Some (h1, l) => Some (h1, OList l) | None => None end else None
  | Iterate => match iterate h with Some (h1, l) => Some (h1, OList l) | None => None end
  | Size => Some (h, OLen (size h) (capacity h))
  | SetAt i v => if (0 <=? i) && (i <? size h) then lift (set h i v) else None
  end.

Fixpoint run (h : hb) (ops : list op) : option (hb * list out) :=
  match ops with
  | [] => Some (h, [])
  | o :: r => match step h o with
              | None => None
              | Some (h1, x) => match run h1 r with None => None | Some (h2, xs) => Some (h2, x :: xs) end
              end
  end.

End Hist.
Arguments hb : clear implicits.
Arguments op : clear implicits.
Arguments out : clear implicits.
