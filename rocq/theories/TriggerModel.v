(** Model of the basic trigger filter.  Source: /repo/core/include/gnuradio-4.0/TriggerMatcher.hpp (TM).
    The filter state (a property_map with fixed keys in the code) is a record; a key that was never written reads as the
    default of value_or.  Strings are lists of characters. *)
From Coq Require Import List Ascii Bool.
Import ListNotations.

Definition str := list ascii.
Definition str_eqb (a b : str) : bool := if list_eq_dec ascii_dec a b then true else false.
Definition isNil {A} (l : list A) : bool := match l with [] => true | _ => false end.

(** std::string_view::starts_with, contains. *)
Fixpoint starts_with (s p : str) : bool :=
  match p, s with [], _ => true | c :: p', d :: s' => Ascii.eqb c d && starts_with s' p' | _, [] => false end.
Fixpoint contains (s p : str) : bool := starts_with s p || match s with [] => false | _ :: s' => contains s' p end.
(** find of a one-character separator: the parts before and after its first occurrence. *)
Fixpoint cut (c : ascii) (s : str) : option (str * str) :=
  match s with
  | [] => None
  | d :: r => if Ascii.eqb d c then Some ([], r) else match cut c r with Some (a, b) => Some (d :: a, b) | None => None end
  end.

(** TM:69-77 trim. *)
Definition isSpace (c : ascii) : bool :=
  existsb (Ascii.eqb c) [" "%char; "009"%char; "010"%char; "013"%char; "012"%char; "011"%char].
Fixpoint dropSpace (s : str) : str := match s with c :: r => if isSpace c then dropSpace r else s | [] => [] end.
Definition trim (s : str) : str := rev (dropSpace (rev (dropSpace s))).

(** TM:10-11. *)
Definition SEPARATOR : ascii := "/"%char.
Definition RANGE_OP : ascii := ","%char.
Definition CARET : ascii := "^"%char.

(** One side of a filter: name, context and the two "until it ends" marks. *)
Record part := { pname : str; pctx : str; pnameEnds : bool; pctxEnds : bool }.
Definition noPart : part := {| pname := []; pctx := []; pnameEnds := false; pctxEnds := false |}.
(** TM:85-92: strips the mark. *)
Definition caret (s : str) : bool * str := if starts_with s [CARET] then (true, trim (skipn 1 s)) else (false, s).

(** TM:79-101 parse; [None] is the exception.  [old] are the caller's variables. *)
Definition parse (trigger : str) (old : part) : option part :=
  match cut SEPARATOR trigger with
  | Some (a, b) =>
      match cut SEPARATOR b with
      | Some _ => None
      | None => let (ne, n) := caret (trim a) in
                let (ce, c) := caret (trim b) in
                Some {| pname := n; pctx := c; pnameEnds := ne; pctxEnds := ce |}
      end
  | None => let (ne, n) := caret (trim trigger) in
            Some {| pname := n; pctx := []; pnameEnds := ne; pctxEnds := pctxEnds old |}
  end.

(** TM:106-122: the keys of the filter state. *)
Record state := {
  sfilter : option str; startDefined : bool; stopDefined : bool;
  start : part; stop : part;
  active : bool; waitStart : bool; waitStop : bool; singleKey : option bool }.
Definition fresh : state :=
  {| sfilter := None; startDefined := false; stopDefined := false; start := noPart; stop := noPart; active := false; waitStart := false; waitStop := false; singleKey := None |}.

(** TM:124-128. *)
Definition reset (s : state) : state :=
  {| sfilter := sfilter s; startDefined := startDefined s; stopDefined := stopDefined s; start := start s; stop := stop s;
     active := false; waitStart := false; waitStop := false; singleKey := singleKey s |}.
(** TM:130-143. *)
Definition isSingle (s : state) : bool := xorb (startDefined s) (stopDefined s).

Definition setStart (s : state) (p : part) (d : bool) : state :=
  {| sfilter := sfilter s; startDefined := d; stopDefined := stopDefined s; start := p; stop := stop s;
     active := active s; waitStart := waitStart s; waitStop := waitStop s; singleKey := singleKey s |}.
Definition setStop (s : state) (p : part) (d : bool) : state :=
  {| sfilter := sfilter s; startDefined := startDefined s; stopDefined := d; start := start s; stop := p;
     active := active s; waitStart := waitStart s; waitStop := waitStop s; singleKey := singleKey s |}.
Definition setFlags (s : state) (a ws we : bool) : state :=
  {| sfilter := sfilter s; startDefined := startDefined s; stopDefined := stopDefined s; start := start s; stop := stop s;
     active := a; waitStart := ws; waitStop := we; singleKey := singleKey s |}.
Definition texts (p : part) (n c : str) : part := {| pname := n; pctx := c; pnameEnds := pnameEnds p; pctxEnds := pctxEnds p |}.

(** TM:172-177: brackets; [None] is the exception. *)
Definition strip (m : str) : option str :=
  match m with
  | [] => Some []
  | c :: _ => let f := Ascii.eqb c "["%char in let b := Ascii.eqb (last m c) "]"%char in
              if f && b then Some (removelast (skipn 1 m)) else if xorb f b then None else Some m
  end.
(** TM:179-186. *)
Definition sides (c : str) : str * str := match cut RANGE_OP c with Some (a, b) => (trim a, trim b) | None => (c, []) end.

(** TM:214-226: a lone stop part becomes the start part (only its texts, not its marks). *)
Definition moveStop (s : state) : state :=
  if isSingle s && stopDefined s
  then setStop (setStart s (texts (start s) (pname (stop s)) (pctx (stop s))) (startDefined s)) (texts (stop s) [] []) (stopDefined s)
  else s.
(** TM:228-240: equal sides. *)
Definition collapse (s : state) : state :=
  if str_eqb (pname (start s)) (pname (stop s)) && str_eqb (pctx (start s)) (pctx (stop s))
  then setStop (setStart s (start s) true) (texts (stop s) [] []) false else s.
(** TM:242-248. *)
Definition noteSingle (s : state) : state :=
  {| sfilter := sfilter s; startDefined := startDefined s; stopDefined := stopDefined s; start := start s; stop := stop s;
     active := active s; waitStart := waitStart s; waitStop := waitStop s; singleKey := Some (xorb (startDefined s) (stopDefined s)) |}.

(** TM:145-254 verifyFilterState: the state, and whether an exception was thrown. *)
Definition verify (m : str) (s0 : state) : state * bool :=
  if match sfilter s0 with Some f => str_eqb f m | None => false end then (s0, false)
  else
    let s := {| sfilter := Some m; startDefined := false; stopDefined := false; start := noPart; stop := noPart;
                active := false; waitStart := false; waitStop := false; singleKey := singleKey s0 |} in
    if isNil m then (s, false)
    else match strip m with
         | None => (s, true)
         | Some c =>
             let (a, b) := sides c in
             match (if isNil a then Some (setStart s (texts (start s) [] []) (startDefined s))
                    else option_map (fun p => setStart s p true) (parse a (start s))) with
             | None => (s, true)
             | Some s1 =>
                 match (if isNil b then Some (setStop s1 (texts (stop s1) [] []) (stopDefined s1))
                        else option_map (fun p => setStop s1 p true) (parse b (stop s1))) with
                 | None => (s1, true)
                 | Some s2 => (noteSingle (collapse (moveStop s2)), false)
                 end
             end
         end.

(** The tag's map: the four keys that matter; [None] is a value that is not a string. *)
Inductive key := LongName | ShortName | LongCtx | ShortCtx | Other.
Definition key_eqb (a b : key) : bool :=
  match a, b with LongName, LongName | ShortName, ShortName | LongCtx, LongCtx | ShortCtx, ShortCtx | Other, Other => true | _, _ => false end.
Definition tag := list (key * option str).
Definition lookup (k : key) (t : tag) : option (option str) :=
  match find (fun e => key_eqb (fst e) k) t with Some e => Some (snd e) | None => None end.
(** TM:276-282 readTagString. *)
Definition readTagString (t : tag) (long short : key) : str :=
  match (match lookup long t with Some v => Some v | None => lookup short t end) with Some (Some v) => v | _ => [] end.

Inductive result := Matching | NotMatching | Ignore.

(** TM:256-336 filter: the result is [None] when an exception was thrown. *)
Definition filter (m : str) (t : tag) (s0 : state) : state * option result :=
  let (s, thrown) := verify m s0 in
  if thrown then (s, None)
  else if (negb (startDefined s) && negb (stopDefined s)) || isNil t then (s, Some Ignore)
  else
    let name := readTagString t LongName ShortName in
    let ctx := readTagString t LongCtx ShortCtx in
    let sEnds := pnameEnds (start s) || pctxEnds (start s) in
    let eEnds := pnameEnds (stop s) || pctxEnds (stop s) in
    let nameOk (n : str) := isNil n || str_eqb name n in
    if isSingle s && nameOk (pname (start s)) && (isNil (pctx (start s)) || contains (pctx (start s)) ctx)
    then (setFlags s (active s) sEnds (waitStop s), Some Matching)
    else if startDefined s && stopDefined s
    then
      if negb (active s) || waitStart s
      then
        if nameOk (pname (start s)) && (isNil (pctx (start s)) || contains ctx (pctx (start s)))
        then (setFlags s true sEnds (waitStop s), Some (if sEnds then Ignore else Matching))
        else if waitStart s then (setFlags s (active s) false (waitStop s), Some Matching)
        else (s, Some Ignore)
      else
        let tm := nameOk (pname (stop s)) in
        let cm := isNil (pctx (stop s)) || contains ctx (pctx (stop s)) in
        if (tm && cm) || waitStop s
        then
          let s' := setFlags s (active s) (waitStart s) eEnds in
          if negb eEnds then (reset s', Some NotMatching)
          else if negb tm || negb cm then (reset s', Some NotMatching)
          else (s', Some Ignore)
        else (s, Some Ignore)
    else (s, Some Ignore).

(** A client that applies one filter to a sequence of tags. *)
Fixpoint run (m : str) (ts : list tag) (s : state) : state * list (option result) :=
  match ts with
  | [] => (s, [])
  | t :: r => let (s', o) := filter m t s in let (s'', os) := run m r s' in (s'', o :: os)
  end.
