(* What users expect of the parser. *)

From Coq Require Import Ascii ZArith NArith Bool Lia List.
From Verif Require Import NmeaModel.
Import ListNotations.

Local Open Scope char_scope.
Local Open Scope nat_scope.

(* Exclusive or of all bytes, from the end. *)
Fixpoint xorAll (p : text) : N := match p with [] => 0%N | c :: r => N.lxor (N_of_ascii c) (xorAll r) end.

(* A line with two hexadecimal digits that are the exclusive or of what is
   between $ and the last star. *)
Definition checked (line : text) : Prop :=
  exists p h1 h2 a b, line = "$" :: p ++ ["*"; h1; h2] /\
    hexDigit h1 = Some a /\ hexDigit h2 = Some b /\ xorAll p = (16 * a + b)%N.

(* The texts with commas between them. *)
Fixpoint join (fs : list text) : text :=
  match fs with [] => [] | [f] => f | f :: r => f ++ "," :: join r end.

(* The second of a sentence that has a time. *)
Definition secondOf (line : text) : option Z :=
  match readLine line with
  | Some (k, f) =>
    match k with
    | RMC => if (12 <=? length f) && (6 <=? length (nth 1 f [])) then Some (parseInt (substr 4 2 (nth 1 f []))) else None
    | GGA => if (15 <=? length f) && (6 <=? length (nth 1 f [])) then Some (parseInt (substr 4 2 (nth 1 f []))) else None
    | _ => None
    end
  | None => None
  end.

(* The second of the last sentence that has a time. *)
Fixpoint lastSecond (ls : list (text * Z)) : option Z :=
  match ls with
  | [] => None
  | (l, _) :: r => match lastSecond r with Some n => Some n | None => secondOf l end
  end.

(* All times of the lines have this second. *)
Definition sameSecond (n : Z) (ls : list (text * Z)) : Prop :=
  forall l t, In (l, t) ls -> forall m, secondOf l = Some m -> m = n.

(* A sentence that says it has a position. *)
Definition positioned (line : text) : Prop :=
  exists f, (readLine line = Some (RMC, f) /\ 12 <= length f /\ nth 2 f [] = ["A"]) \/
            (readLine line = Some (GGA, f) /\ 15 <= length f /\ (0 < parseInt (nth 6 f []))%Z).

(* The digits, in order. *)
Definition decDigits : text := ["0"; "1"; "2"; "3"; "4"; "5"; "6"; "7"; "8"; "9"].
Definition upperDigits : text := decDigits ++ ["A"; "B"; "C"; "D"; "E"; "F"].
Definition lowerDigits : text := decDigits ++ ["a"; "b"; "c"; "d"; "e"; "f"].
(* A number from its digits, the first one counting most. *)
Fixpoint valueOf (ds : list nat) : Z :=
  match ds with [] => 0%Z | d :: r => (Z.of_nat d * 10 ^ Z.of_nat (length r) + valueOf r)%Z end.
Definition written10 (ds : list nat) : text := map (fun d => nth d decDigits "0") ds.
