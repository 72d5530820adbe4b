(** What a trigger filter means.  Does not mention the matcher's state. *)
From Coq Require Import List Ascii Bool.
From Verif Require Import TriggerModel.
Import ListNotations.

(** The tag's trigger name and context: the "gr:" key if present, else the bare key; the empty text if absent. *)
Inductive textOf (long short : key) : tag -> str -> Prop :=
| text_long t v pre post : t = pre ++ (long, v) :: post -> ~ In long (map fst pre) -> textOf long short t (match v with Some x => x | None => [] end)
| text_short t v pre post : ~ In long (map fst t) -> t = pre ++ (short, v) :: post -> ~ In short (map fst pre) -> textOf long short t (match v with Some x => x | None => [] end)
| text_none t : ~ In long (map fst t) -> ~ In short (map fst t) -> textOf long short t [].

Definition substring (x s : str) : Prop := exists a b, s = a ++ x ++ b.

(** A tag satisfies one side of a filter: equal name (if one is given) and a context containing the wanted text. *)
Definition satisfies (p : part) (t : tag) : Prop :=
  (pname p = [] \/ textOf LongName ShortName t (pname p)) /\
  (pctx p = [] \/ exists c, textOf LongCtx ShortCtx t c /\ substring (pctx p) c).

(** A data window without marks: opened by a start tag, closed by a stop tag.  [S] and [E] say whether a tag satisfies the
    start and stop side; empty tags are invisible. *)
Section Window.
Variables S E : tag -> bool.
Fixpoint windowOpen (seen : list tag) : bool := (** tags in reverse order of arrival *)
  match seen with
  | [] => false
  | t :: r => if isNil t then windowOpen r else if windowOpen r then negb (E t) else S t
  end.
Definition windowResult (seen : list tag) (t : tag) : result :=
  if isNil t then Ignore else if windowOpen seen then (if E t then NotMatching else Ignore) else (if S t then Matching else Ignore).

(** With marks: a marked start (stop) takes effect with the first tag that no longer satisfies it. *)
Inductive phase := Idle | Pending | Open | Closing.
Definition phaseStep (sMark eMark : bool) (p : phase) (t : tag) : phase * result :=
  if isNil t then (p, Ignore)
  else match p with
       | Idle => if S t then (if sMark then (Pending, Ignore) else (Open, Matching)) else (Idle, Ignore)
       | Pending => if S t then (Pending, Ignore) else (Open, Matching)
       | Open => if E t then (if eMark then (Closing, Ignore) else (Idle, NotMatching)) else (Open, Ignore)
       | Closing => if E t then (Closing, Ignore) else (Idle, NotMatching)
       end.
Fixpoint phaseRun (sMark eMark : bool) (p : phase) (ts : list tag) : list result :=
  match ts with [] => [] | t :: r => snd (phaseStep sMark eMark p t) :: phaseRun sMark eMark (fst (phaseStep sMark eMark p t)) r end.
End Window.

(** Starts and stops alternate, beginning with a start ([isOpen] says whether a start is outstanding). *)
Fixpoint alternates (isOpen : bool) (rs : list result) : Prop :=
  match rs with
  | [] => True
  | Ignore :: r => alternates isOpen r
  | Matching :: r => isOpen = false /\ alternates true r
  | NotMatching :: r => isOpen = true /\ alternates false r
  end.

(** Filter texts. *)
Definition opens (m : str) : Prop := exists x, m = "["%char :: x.
Definition closes (m : str) : Prop := exists x, m = x ++ ["]"%char].
Definition content (m c : str) : Prop := m = "["%char :: c ++ ["]"%char] \/ (~ opens m /\ ~ closes m /\ c = m).
Definition side (c p : str) : Prop :=
  (~ In RANGE_OP c /\ p = c) \/ exists a b, c = a ++ RANGE_OP :: b /\ ~ In RANGE_OP a /\ (p = a \/ p = b).
Definition malformed (m : str) : Prop :=
  (opens m /\ ~ closes m) \/ (~ opens m /\ closes m) \/
  exists c p x y z, content m c /\ side c p /\ p = x ++ SEPARATOR :: y ++ SEPARATOR :: z.

(** A clean text: no separators, no surrounding space, no leading mark. *)
Definition clean (s : str) : Prop :=
  ~ In SEPARATOR s /\ ~ In RANGE_OP s /\ ~ In "["%char s /\ ~ In "]"%char s /\ starts_with s [CARET] = false /\
  (forall c r, s = c :: r -> isSpace c = false) /\ (forall c r, s = r ++ [c] -> isSpace c = false).
Definition blank (s : str) : Prop := forall c, In c s -> isSpace c = true.
(** The text of one side: blanks, mark, blanks, name, blanks, "/", blanks, mark, blanks, context, blanks. *)
Definition marked (e : bool) (w : str) : str := if e then CARET :: w else [].
Inductive rendered (p : part) : str -> Prop :=
| rendered_full w1 w2 w3 w4 w5 w6 : blank w1 -> blank w2 -> blank w3 -> blank w4 -> blank w5 -> blank w6 ->
    rendered p (w1 ++ marked (pnameEnds p) w2 ++ pname p ++ w3 ++ SEPARATOR :: w4 ++ marked (pctxEnds p) w5 ++ pctx p ++ w6)
| rendered_name w1 w2 w3 : blank w1 -> blank w2 -> blank w3 -> pctx p = [] -> pctxEnds p = false ->
    rendered p (w1 ++ marked (pnameEnds p) w2 ++ pname p ++ w3).
