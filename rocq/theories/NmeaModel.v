(* Model of the parser for lines of GPS receivers:
   /repo/blocks/timing/include/gnuradio-4.0/NMEAParser.hpp ("NP").

   Simplified: fields that hold real numbers are kept as their text; the time
   in nanoseconds is any function of the texts of time and date. *)

From Coq Require Import Ascii ZArith NArith Bool Lia List.
Import ListNotations.

Local Open Scope char_scope.
Local Open Scope nat_scope.

Definition text : Type := list ascii.
Definition teq (a b : text) : bool := if list_eq_dec ascii_dec a b then true else false.

(* computeNMEAChecksum.  NP:112-118 *)
Definition checksum (p : text) : N := fold_left (fun a c => N.lxor a (N_of_ascii c)) p 0%N.

(* string_view::rfind and find of one character. *)
Fixpoint rfind (c : ascii) (l : text) : option nat :=
  match l with
  | [] => None
  | x :: r => match rfind c r with Some i => Some (S i) | None => if Ascii.eqb x c then Some 0 else None end
  end.
Fixpoint find (c : ascii) (l : text) : option nat :=
  match l with
  | [] => None
  | x :: r => if Ascii.eqb x c then Some 0 else match find c r with Some i => Some (S i) | None => None end
  end.
(* string_view::substr. *)
Definition substr (a n : nat) (l : text) : text := firstn n (skipn a l).

(* A hexadecimal digit as std::from_chars reads it. *)
Definition hexDigit (c : ascii) : option N :=
  let n := N_of_ascii c in
  if ((48 <=? n) && (n <=? 57))%N then Some (n - 48)%N
  else if ((65 <=? n) && (n <=? 70))%N then Some (n - 55)%N
  else if ((97 <=? n) && (n <=? 102))%N then Some (n - 87)%N
  else None.
(* std::from_chars of at most two characters, base 16: the longest prefix of
   digits counts, the rest is not looked at.  NP:133-134 *)
Definition fromHex (l : text) : option N :=
  match l with
  | [] => None
  | h :: r => match hexDigit h with
              | None => None
              | Some a => match r with
                          | k :: _ => match hexDigit k with Some b => Some (16 * a + b)%N | None => Some a end
                          | [] => Some a
                          end
              end
  end.

(* validateNMEAChecksum.  NP:120-135 *)
Definition validate (line : text) : bool :=
  match line with
  | "$" :: _ =>
    if length line <? 4 then false else
    match rfind "*" line with
    | None => true
    | Some star =>
      if negb (star + 3 =? length line) then false else
      match fromHex (substr (star + 1) 2 line) with
      | Some v => N.eqb (checksum (substr 1 (star - 1) line)) v
      | None => false
      end
    end
  | _ => false
  end.

(* splitNMEAFields.  NP:37-50 *)
Fixpoint split (l : text) : list text :=
  match l with
  | [] => [[]]
  | c :: r => if Ascii.eqb c "," then [] :: split r
              else match split r with [] => [[c]] | f :: fs => (c :: f) :: fs end
  end.

(* std::from_chars for int: an optional minus and the longest prefix of digits;
   the fallback is 0.  NP:52-57 *)
Definition digit (c : ascii) : option Z :=
  let n := N_of_ascii c in if ((48 <=? n) && (n <=? 57))%N then Some (Z.of_N n - 48)%Z else None.
Fixpoint digits (acc : Z) (l : text) : Z :=
  match l with
  | [] => acc
  | c :: r => match digit c with Some d => digits (10 * acc + d) r | None => acc end
  end.
Definition inInt (z : Z) : Z := if ((- 2 ^ 31 <=? z) && (z <? 2 ^ 31))%Z then z else 0%Z.
Definition parseInt (l : text) : Z :=
  match l with "-" :: r => inInt (- digits 0 r) | _ => inInt (digits 0 l) end.

(* extractSentenceId.  NP:188-197 *)
Definition sentenceId (line : text) : text :=
  if length line <? 6 then [] else
  match find "," line with
  | None => []
  | Some k => if k <? 4 then [] else substr 3 (k - 3) line
  end.

(* The sentences that are used. *)
Inductive kind : Type := RMC | GGA | VTG | GSA.
Definition kindOf (i : text) : option kind :=
  if teq i ["R"; "M"; "C"] then Some RMC
  else if teq i ["G"; "G"; "A"] then Some GGA
  else if teq i ["V"; "T"; "G"] then Some VTG
  else if teq i ["G"; "S"; "A"] then Some GSA else None.

(* remove_suffix of a carriage return.  NP:152-154 *)
Definition chomp (line : text) : text :=
  match rev line with c :: r => if Ascii.eqb c (ascii_of_nat 13) then rev r else line | [] => line end.

(* parseLine up to the sentence.  NP:148-182 *)
Definition readLine (line : text) : option (kind * list text) :=
  match line with
  | "$" :: _ =>
    let line := chomp line in
    if validate line then
      let line := match rfind "*" line with Some s => firstn s line | None => line end in
      match kindOf (sentenceId line) with Some k => Some (k, split line) | None => None end
    else None
  | _ => None
  end.

(* GpsFix.  NP:20-33 *)
Record fix_ : Type := mkFix {
  utc : Z; localT : Z; lat : text * text; lon : text * text; alt : text; sats : text; hdop : text;
  ftype : nat; knots : bool * text; heading : text; hasPos : bool; hasTime : bool }.
Definition noFix : fix_ := mkFix 0 0 ([], []) ([], []) [] [] [] 0 (false, []) [] false false.

(* NMEAParser.  NP:141-145 *)
Record pst : Type := mkP { pend : fix_; lastFix : fix_; sec : Z; date : text }.
Definition init (d : text) : pst := mkP noFix noFix (-1) d.

(* nmeaToUTCNs: 0 for a short time.  NP:79-108 *)
Definition toUtc (conv : text -> text -> Z) (time d : text) : Z :=
  if length time <? 6 then 0%Z else conv time d.

(* checkPpsBoundary.  NP:199-214 *)
Definition boundary (s : pst) (time : text) (t : Z) : pst * option fix_ :=
  if length time <? 6 then (s, None) else
  let n := parseInt (substr 4 2 time) in
  if ((0 <=? sec s) && negb (n =? sec s))%Z then
    let p := pend s in
    let f := mkFix (utc p) t (lat p) (lon p) (alt p) (sats p) (hdop p) (ftype p) (knots p) (heading p) (hasPos p) (hasTime p) in
    (mkP noFix f n (date s), Some f)
  else (mkP (pend s) (lastFix s) n (date s), None).

Definition fld (i : nat) (f : list text) : text := nth i f [].
Definition empty (l : text) : bool := match l with [] => true | _ => false end.

(* What a sentence writes into the pending fix; [d] is _lastDate after it.
   NP:233-249 (RMC), 271-284 (GGA), 299-300 (VTG), 316-318 (GSA) *)
Definition write (conv : text -> text -> Z) (d : text) (k : kind) (f : list text) (p : fix_) : fix_ :=
  match k with
  | RMC =>
    if teq (fld 2 f) ["A"] then
      mkFix (toUtc conv (fld 1 f) (fld 9 f)) (localT p) (fld 3 f, fld 4 f) (fld 5 f, fld 6 f) (alt p) (sats p) (hdop p) (ftype p)
            (true, fld 7 f) (fld 8 f) true true
    else
      mkFix (toUtc conv (fld 1 f) d) (localT p) (lat p) (lon p) (alt p) (sats p) (hdop p) (ftype p) (knots p) (heading p) (hasPos p)
            (negb (empty (fld 1 f)))
  | GGA =>
    let p := if (0 <? parseInt (fld 6 f))%Z then
               mkFix (utc p) (localT p) (fld 2 f, fld 3 f) (fld 4 f, fld 5 f) (fld 9 f) (fld 7 f) (fld 8 f) (ftype p) (knots p) (heading p) true (hasTime p)
             else p in
    if negb (hasTime p) && negb (empty (fld 1 f)) then
      mkFix (toUtc conv (fld 1 f) d) (localT p) (lat p) (lon p) (alt p) (sats p) (hdop p) (ftype p) (knots p) (heading p) (hasPos p) true
    else p
  | VTG => mkFix (utc p) (localT p) (lat p) (lon p) (alt p) (sats p) (hdop p) (ftype p) (false, fld 7 f) (fld 1 f) (hasPos p) (hasTime p)
  | GSA => mkFix (utc p) (localT p) (lat p) (lon p) (alt p) (sats p) (fld 16 f)
             (let m := parseInt (fld 2 f) in if (m =? 3)%Z then 3 else if (m =? 2)%Z then 2 else 0)
             (knots p) (heading p) (hasPos p) (hasTime p)
  end.

(* The number of fields a sentence needs.  NP:227, 265, 296, 313 *)
Definition needs (k : kind) : nat := match k with RMC => 12 | GGA => 15 | VTG => 9 | GSA => 18 end.

(* parseRMC, parseGGA, parseVTG, parseGSA.  NP:226-319 *)
Definition sentence (conv : text -> text -> Z) (s : pst) (k : kind) (f : list text) (t : Z) : pst * option fix_ :=
  if length f <? needs k then (s, None) else
  let '(s1, r) := match k with RMC | GGA => boundary s (fld 1 f) t | _ => (s, None) end in
  let d := match k with RMC => if length (fld 9 f) =? 6 then fld 9 f else date s1 | _ => date s1 end in
  (mkP (write conv d k f (pend s1)) (lastFix s1) (sec s1) d, r).

(* parseLine.  NP:148-182 *)
Definition parseLine (conv : text -> text -> Z) (s : pst) (line : text) (t : Z) : pst * option fix_ :=
  match readLine line with None => (s, None) | Some (k, f) => sentence conv s k f t end.

(* A sequence of lines with their times of arrival. *)
Fixpoint feed (conv : text -> text -> Z) (s : pst) (ls : list (text * Z)) : pst :=
  match ls with [] => s | (l, t) :: r => feed conv (fst (parseLine conv s l t)) r end.
