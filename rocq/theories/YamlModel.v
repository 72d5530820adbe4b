(** Model of the YAML writer and reader for maps of values.
    Source: /repo/core/include/gnuradio-4.0/YamlPmt.hpp (abbreviated Y:lines below) and the order of alternatives in
    /repo/core/src/ValueHelper.cpp:34-100.

    Simplifications: an error carries no position and no message; a text is a list of bytes; the three column uses that
    only feed error positions are left out; characters above 0x7f count as not printable for keys (Y:228 hands a possibly
    negative char to ::isprint); the text of finite floating-point numbers and its reading are arguments ([ffmt]); the
    recursive parts of the parser take fuel, and C129 proves that the fuel given by [deserialize] always suffices. *)
From Coq Require Import List NArith ZArith Ascii String Bool Lia.
Import ListNotations.
Local Open Scope bool_scope.

(** Bytes and texts. *)
Definition text : Type := list ascii.
(** A text written down in this model. *)
Definition lit (s : string) : text := list_ascii_of_string s.

(** Y:70-72, 85-87, 131: the C character classes in the "C" locale. *)
Definition code (c : ascii) : N := N_of_ascii c.
Definition isspace (c : ascii) : bool := ((9 <=? code c) && (code c <=? 13) || (code c =? 32))%N.
Definition iscntrl (c : ascii) : bool := ((code c <? 32) || (code c =? 127))%N.
Definition isprint (c : ascii) : bool := ((32 <=? code c) && (code c <=? 126))%N.

(** The characters with a meaning of their own. *)
Definition nl : ascii := "010".
Definition sp : ascii := " ".
Definition bsl : ascii := "\".
Definition quo : ascii := """".
Definition apo : ascii := "'".
Definition hash : ascii := "#".
Definition colon : ascii := ":".
Definition dash : ascii := "-".

(** Equality of texts, prefixes (std::string_view operators, starts_with). *)
Fixpoint teqb (a b : text) : bool :=
  match a, b with
  | [], [] => true
  | x :: a', y :: b' => Ascii.eqb x y && teqb a' b'
  | _, _ => false
  end.
Fixpoint starts (p t : text) : bool :=
  match p, t with
  | [], _ => true
  | x :: p', y :: t' => Ascii.eqb x y && starts p' t'
  | _, [] => false
  end.

(** find_first_of / find / find_first_not_of: index of the first character that satisfies a test. *)
Fixpoint findBy (p : ascii -> bool) (t : text) : option nat :=
  match t with
  | [] => None
  | c :: r => if p c then Some 0%nat else option_map S (findBy p r)
  end.
Definition member (l : text) (c : ascii) : bool := existsb (Ascii.eqb c) l.

(* ------------------------------------------------------------------ values *)

(** The integer types of a value (ValueHelper.cpp:42-49). *)
Inductive ikind := I8 | I16 | I32 | I64 | U8 | U16 | U32 | U64.
Definition bits (k : ikind) : Z := match k with I8 | U8 => 8 | I16 | U16 => 16 | I32 | U32 => 32 | I64 | U64 => 64 end.
Definition signed (k : ikind) : bool := match k with I8 | I16 | I32 | I64 => true | _ => false end.
(** std::numeric_limits of the type. *)
Definition inRange (k : ikind) (z : Z) : bool :=
  (if signed k then (- 2 ^ (bits k - 1) <=? z) && (z <? 2 ^ (bits k - 1)) else (0 <=? z) && (z <? 2 ^ bits k))%Z.

(** A number or truth value; floating-point numbers by their bit pattern. *)
Inductive scal :=
| SBool (b : bool)
| SInt (k : ikind) (z : Z)
| SF32 (x : N)
| SF64 (x : N)
| SC32 (re im : N)
| SC64 (re im : N).

(** Their types. *)
Inductive stype := TBool | TInt (k : ikind) | TF32 | TF64 | TC32 | TC64.
Definition typeOf (s : scal) : stype :=
  match s with
  | SBool _ => TBool | SInt k _ => TInt k | SF32 _ => TF32 | SF64 _ => TF64 | SC32 _ _ => TC32 | SC64 _ _ => TC64
  end.
Definition ikindEq (a b : ikind) : bool := (bits a =? bits b)%Z && Bool.eqb (signed a) (signed b).
Definition stypeEq (a b : stype) : bool :=
  match a, b with
  | TBool, TBool | TF32, TF32 | TF64, TF64 | TC32, TC32 | TC64, TC64 => true
  | TInt x, TInt y => ikindEq x y
  | _, _ => false
  end.

(** pmt::Value: nothing, a number, a string, a map (in the order of its entries), a tensor of numbers with its extents, a
    tensor of values, a tensor of strings (ValueHelper.cpp:41-93). The extents of the last two are left out. *)
Inductive val :=
| VNull
| VS (s : scal)
| VStr (t : text)
| VMap (m : list (text * val))
| VTen (ty : stype) (ext : list nat) (xs : list scal)
| VList (vs : list val)
| VStrs (ts : list text).

(** How finite floating-point numbers are written (os << value, Y:206,209, precision 6) and read (std::from_chars, Y:551). *)
Record ffmt := mkF { show32 : N -> text; read32 : text -> option N; show64 : N -> text; read64 : text -> option N }.

(* ------------------------------------------------------------------ writing *)

(** Y:73: {:02x}. *)
Definition hexDigit (n : N) : ascii := ascii_of_N (if (n <? 10)%N then 48 + n else 87 + n)%N.
Definition hex2 (c : ascii) : text := [hexDigit (code c / 16); hexDigit (code c mod 16)]%N.

(** Y:56-79. *)
Definition escapeChar (q : bool) (c : ascii) : text :=
  if Ascii.eqb c quo && q then [bsl; quo]
  else if Ascii.eqb c nl && q then [bsl; "n"%char]
  else if Ascii.eqb c bsl && q then [bsl; bsl]
  else if Ascii.eqb c "009" && q then [bsl; "t"%char]
  else if Ascii.eqb c "013" && q then [bsl; "r"%char]
  else if Ascii.eqb c "008" then [bsl; "b"%char]
  else if iscntrl c && negb (Ascii.eqb c nl) then bsl :: "x"%char :: hex2 c
  else [c].
Definition escapeString (q : bool) (t : text) : text := flat_map (escapeChar q) t.

(** Y:106; the level here is one more than in the source, whose top level is -1. *)
Definition indent (n : nat) : text := repeat sp (2 * n).

(** std::getline over a string (Y:120-123): a final newline does not start another line. *)
Fixpoint splitAux (sep : ascii) (cur : text) (t : text) : list text :=
  match t with
  | [] => match cur with [] => [] | _ => [rev cur] end
  | c :: r => if Ascii.eqb c sep then rev cur :: splitAux sep [] r else splitAux sep (c :: cur) r
  end.
(** Y:372-386 (split), with a separator of one character. *)
Definition split (sep : ascii) (t : text) : list text := splitAux sep [] t.

(** value.ends_with (Y:114). *)
Definition endsWith (c : ascii) (t : text) : bool := match rev t with x :: _ => Ascii.eqb x c | [] => false end.

(** Y:112-140, tag mode Auto or None. *)
Definition serializeString (auto : bool) (t : text) (L : nat) (multi : bool) : text :=
  if multi then
    lit "|" ++ (if endsWith nl t then [] else lit "-") ++ [nl]
    ++ flat_map (fun l => indent L ++ escapeString false l ++ [nl]) (split nl t)
  else if auto then quo :: escapeString true t ++ [quo; nl]
  else
    let needed := match t with [] => false | c :: _ => isspace c || match rev t with x :: _ => isspace x | [] => false end end in
    if needed then quo :: escapeString true t ++ [quo; nl] else escapeString true t ++ [nl].

(** Y:212. *)
Definition multiline (t : text) : bool := existsb (Ascii.eqb nl) t && forallb (fun c => isprint c || Ascii.eqb c nl) t.

(** Y:143-177. *)
Definition tagOf (ty : stype) : text :=
  match ty with
  | TBool => lit "!!bool"
  | TInt U8 => lit "!!uint8" | TInt U16 => lit "!!uint16" | TInt U32 => lit "!!uint32" | TInt U64 => lit "!!uint64"
  | TInt I8 => lit "!!int8" | TInt I16 => lit "!!int16" | TInt I32 => lit "!!int32" | TInt I64 => lit "!!int64"
  | TF32 => lit "!!float32" | TF64 => lit "!!float64" | TC32 => lit "!!complex32" | TC64 => lit "!!complex64"
  end.

(** Decimal digits of a number (os << value for integers, Y:194-199). *)
Fixpoint digitsAux (fuel : nat) (n : N) (acc : text) : text :=
  let acc' := ascii_of_N (48 + n mod 10)%N :: acc in
  match fuel with
  | O => acc'
  | S f => if (n / 10 =? 0)%N then acc' else digitsAux f (n / 10)%N acc'
  end.
Definition digits (n : N) : text := digitsAux (N.size_nat n) n [].
Definition showInt (z : Z) : text := match z with Zneg p => dash :: digits (Npos p) | _ => digits (Z.to_N z) end.

(** std::isnan, std::isinf and the sign, from the bit pattern (Y:201-204). *)
Definition isNan32 (x : N) : bool := ((x / 2 ^ 23) mod 2 ^ 8 =? 255)%N && negb (x mod 2 ^ 23 =? 0)%N.
Definition isInf32 (x : N) : bool := ((x / 2 ^ 23) mod 2 ^ 8 =? 255)%N && (x mod 2 ^ 23 =? 0)%N.
Definition neg32 (x : N) : bool := (x / 2 ^ 31 =? 1)%N.
Definition isNan64 (x : N) : bool := ((x / 2 ^ 52) mod 2 ^ 11 =? 2047)%N && negb (x mod 2 ^ 52 =? 0)%N.
Definition isInf64 (x : N) : bool := ((x / 2 ^ 52) mod 2 ^ 11 =? 2047)%N && (x mod 2 ^ 52 =? 0)%N.
Definition neg64 (x : N) : bool := (x / 2 ^ 63 =? 1)%N.

(** Y:191-209: the text of a number. *)
Definition showScal (F : ffmt) (s : scal) : text :=
  match s with
  | SBool b => if b then lit "true" else lit "false"
  | SInt _ z => showInt z
  | SF32 x => if isNan32 x then lit ".nan" else if isInf32 x then (if neg32 x then lit "-.inf" else lit ".inf") else show32 F x
  | SF64 x => if isNan64 x then lit ".nan" else if isInf64 x then (if neg64 x then lit "-.inf" else lit ".inf") else show64 F x
  | SC32 a b => lit "(" ++ show32 F a ++ lit "," ++ show32 F b ++ lit ")"
  | SC64 a b => lit "(" ++ show64 F a ++ lit "," ++ show64 F b ++ lit ")"
  end.

(** Y:228-232: the text of a key up to the value. *)
Definition rawKey (k : text) : bool := negb (existsb (Ascii.eqb colon) k) && forallb isprint k.
Definition keyText (k : text) : text := (if rawKey k then k else quo :: escapeString true k ++ [quo]) ++ lit ": ".

(** Y:179-251. In mode None no type tags are written; the items of a tensor other than a tensor of values are written in
    mode None (Y:246). *)
Fixpoint ser (F : ffmt) (auto : bool) (L : nat) (v : val) : text :=
  match v with
  | VNull => (if auto then lit "!!null " else []) ++ lit "null" ++ [nl]
  | VS s => (if auto then tagOf (typeOf s) ++ [sp] else []) ++ showScal F s ++ [nl]
  | VStr t => (if auto then [sp] else []) ++ serializeString auto t L (multiline t)
  | VMap m =>
      match m with
      | [] => lit " {}" ++ [nl]
      | _ => [nl] ++ flat_map (fun kv => indent L ++ keyText (fst kv) ++ ser F auto (S L) (snd kv)) m
      end
  | VTen ty _ xs =>
      (if auto then tagOf ty else [])
      ++ match xs with
         | [] => lit " []" ++ [nl]
         | _ => [nl] ++ flat_map (fun s => indent L ++ lit "- " ++ showScal F s ++ [nl]) xs
         end
  | VList vs =>
      match vs with
      | [] => lit " []" ++ [nl]
      | _ => [nl] ++ flat_map (fun x => indent L ++ lit "- " ++ ser F auto (S L) x) vs
      end
  | VStrs ts =>
      match ts with
      | [] => lit " []" ++ [nl]
      | _ => [nl] ++ flat_map (fun t => indent L ++ lit "- " ++ serializeString false t (S L) (multiline t)) ts
      end
  end.

(** Y:1238-1247. *)
Definition serialize (F : ffmt) (auto : bool) (m : list (text * val)) : text :=
  match m with [] => [] | _ => ser F auto 0 (VMap m) end.

(* ------------------------------------------------------------------ the position in the document *)

(** Y:260-263: the current line (whole line and what remains of it), and the lines after it; no current line at the end. *)
Record st := mkSt { cur : option (text * text); nxt : list text }.

(** Y:357. *)
Definition rem (s : st) : text := match cur s with Some (_, r) => r | None => [] end.
Definition full (s : st) : text := match cur s with Some (f, _) => f | None => [] end.
Definition eod (s : st) : bool := match cur s with None => true | _ => false end.
(** Y:359. *)
Definition eol (s : st) : bool := match rem s with [] => true | _ => false end.
Definition linesLeft (s : st) : nat := (match cur s with None => 0 | _ => 1 end + List.length (nxt s))%nat.

(** Y:323-328. *)
Definition atLines (ls : list text) : st := match ls with [] => mkSt None [] | l :: r => mkSt (Some (l, l)) r end.
Definition nextLine (s : st) : st := match cur s with None => s | Some _ => atLines (nxt s) end.

(** Y:330-333. *)
Definition consume (n : nat) (s : st) : st := match cur s with None => s | Some (f, r) => mkSt (Some (f, skipn n r)) (nxt s) end.

(** Y:335-345. *)
Fixpoint dropSpaces (t : text) : text := match t with c :: r => if Ascii.eqb c sp then dropSpaces r else t | [] => [] end.
Definition consumeSpaces (s : st) : st := match cur s with None => s | Some (f, r) => mkSt (Some (f, dropSpaces r)) (nxt s) end.

(** Y:347-355. *)
Fixpoint skipL (ls : list text) : st :=
  match ls with
  | [] => mkSt None []
  | l :: m =>
      match dropSpaces l with
      | [] => skipL m
      | c :: r => if Ascii.eqb c hash then skipL m else mkSt (Some (l, c :: r)) m
      end
  end.
Definition cws (s : st) : st :=
  match cur s with
  | None => s
  | Some (f, r) =>
      match dropSpaces r with
      | [] => skipL (nxt s)
      | c :: r' => if Ascii.eqb c hash then skipL (nxt s) else mkSt (Some (f, c :: r')) (nxt s)
      end
  end.

(** Y:269-321. *)
Definition startsWith (p : text) (s : st) : bool := negb (eol s) && starts p (rem s).
Definition startsWithToken (p : text) (s : st) : bool :=
  negb (eol s) && starts p (rem s)
  && match skipn (List.length p) (rem s) with [] => true | c :: _ => isspace c end.

(** Y:363. *)
Definition currentIndent (chars : text) (s : st) : option nat := findBy (fun c => negb (member chars c)) (full s).
(** The repeated comparison with the indentation of the parent (Y:755, 907, 962, 1077, 1168). *)
Definition notDeeper (ind : option nat) (parent : Z) : bool :=
  (0 <=? parent)%Z && match ind with Some n => (Z.of_nat n <=? parent)%Z | None => false end.

(** Y:81-89. *)
Fixpoint isIgnorableLine (l : text) : bool :=
  match l with
  | [] => true
  | c :: r => if isspace c || iscntrl c then isIgnorableLine r else Ascii.eqb c hash
  end.

(** Y:91-104. *)
Fixpoint dropSpace (t : text) : text := match t with c :: r => if isspace c then dropSpace r else t | [] => [] end.
Definition trim (t : text) : text := rev (dropSpace (rev (dropSpace t))).
Definition stripComment (t : text) : text := match findBy (Ascii.eqb hash) t with Some n => firstn n t | None => t end.
Definition trimAndStripComment (t : text) : text := trim (stripComment t).

(* ------------------------------------------------------------------ scalars *)

(** The value of a digit in some base. *)
Definition digitVal (c : ascii) : option N :=
  if (48 <=? code c)%N && (code c <=? 57)%N then Some (code c - 48)%N
  else if (97 <=? code c)%N && (code c <=? 122)%N then Some (code c - 87)%N
  else if (65 <=? code c)%N && (code c <=? 90)%N then Some (code c - 55)%N
  else None.
Definition digitIn (base : N) (c : ascii) : option N :=
  match digitVal c with Some d => if (d <? base)%N then Some d else None | None => None end.
(** All characters are digits; at least one is needed. *)
Fixpoint readDigits (base : N) (acc : N) (t : text) : option N :=
  match t with
  | [] => Some acc
  | c :: r => match digitIn base c with Some d => readDigits base (acc * base + d) r | None => None end
  end.
Definition readNat (base : N) (t : text) : option N := match t with [] => None | _ => readDigits base 0 t end.

(** std::from_chars over the whole text (Y:560-563). *)
Definition fromChars (k : ikind) (base : N) (t : text) : option Z :=
  match t with
  | c :: r =>
      let z := if Ascii.eqb c dash && signed k then option_map (fun n => (- Z.of_N n)%Z) (readNat base r)
               else option_map Z.of_N (readNat base t) in
      match z with Some x => if inRange k x then Some x else None | None => None end
  | [] => None
  end.
(** Y:556-573. *)
Definition parseInt (k : ikind) (t0 : text) : option Z :=
  let t := trim t0 in
  if starts (lit "0x") t then fromChars k 16 (skipn 2 t)
  else if starts (lit "0o") t then fromChars k 8 (skipn 2 t)
  else if starts (lit "0b") t then fromChars k 2 (skipn 2 t)
  else fromChars k 10 t.

(** Y:532-540. *)
Definition boolText (t : text) : option bool :=
  if teqb t (lit "true") || teqb t (lit "True") || teqb t (lit "TRUE") then Some true
  else if teqb t (lit "false") || teqb t (lit "False") || teqb t (lit "FALSE") then Some false else None.

(** Y:541-555, with the infinities and the quiet NaN of the type. *)
Definition parseFloat (inf ninf qnan : N) (read : text -> option N) (t0 : text) : option N :=
  let t := trimAndStripComment t0 in
  if teqb t (lit ".inf") || teqb t (lit ".Inf") || teqb t (lit ".INF") then Some inf
  else if teqb t (lit "-.inf") || teqb t (lit "-.Inf") || teqb t (lit "-.INF") then Some ninf
  else if teqb t (lit ".nan") || teqb t (lit ".NaN") || teqb t (lit ".NAN") then Some qnan
  else read t.
Definition parseF32 (F : ffmt) (t : text) : option N := parseFloat 2139095040 4286578688 2143289344 (read32 F) t.
Definition parseF64 (F : ffmt) (t : text) : option N :=
  parseFloat 9218868437227405312 18442240474082181120 9221120237041090560 (read64 F) t.

(** Y:574-594. *)
Definition parseComplex (p : text -> option N) (t0 : text) : option (N * N) :=
  let t := trimAndStripComment t0 in
  if starts (lit "(") t && endsWith ")"%char t then
    match split "," (removelast (tl t)) with
    | [a; b] => match p (trim a), p (trim b) with Some x, Some y => Some (x, y) | _, _ => None end
    | _ => None
    end
  else None.

(** Y:423-439 for two characters: std::from_chars in base 16 stops at the first character that is no digit. *)
Definition hexByte (h1 h2 : ascii) : option ascii :=
  match digitIn 16 h1 with
  | None => None
  | Some a => match digitIn 16 h2 with Some b => Some (ascii_of_N (16 * a + b)) | None => Some (ascii_of_N a) end
  end.

(** Y:483-526. *)
Fixpoint resolveQuoted (t : text) : option text :=
  match t with
  | [] => Some []
  | c :: r =>
      if Ascii.eqb c bsl then
        match r with
        | [] => Some [c]
        | e :: r' =>
            if Ascii.eqb e bsl then option_map (cons bsl) (resolveQuoted r')
            else if Ascii.eqb e "b" then option_map (cons "008"%char) (resolveQuoted r')
            else if Ascii.eqb e "n" then option_map (cons nl) (resolveQuoted r')
            else if Ascii.eqb e "t" then option_map (cons "009"%char) (resolveQuoted r')
            else if Ascii.eqb e "r" then option_map (cons "013"%char) (resolveQuoted r')
            else if Ascii.eqb e quo then option_map (cons quo) (resolveQuoted r')
            else if Ascii.eqb e "0" then option_map (cons "000"%char) (resolveQuoted r')
            else if Ascii.eqb e "x" then
              match r' with
              | h1 :: h2 :: r'' =>
                  match hexByte h1 h2 with
                  | Some b => option_map (cons b) (resolveQuoted r'')
                  | None => option_map (fun x => bsl :: e :: x) (resolveQuoted r')
                  end
              | _ => option_map (fun x => bsl :: e :: x) (resolveQuoted r')
              end
            else if Ascii.eqb e "u" then None
            else option_map (fun x => bsl :: e :: x) (resolveQuoted r')
        end
      else option_map (cons c) (resolveQuoted r)
  end.

(** Y:441-481. *)
Fixpoint resolveMultiline (t : text) : option text :=
  match t with
  | [] => Some []
  | c :: r =>
      if Ascii.eqb c bsl then
        match r with
        | [] => Some [c]
        | e :: r' =>
            if Ascii.eqb e "0" then option_map (cons "000"%char) (resolveMultiline r')
            else if Ascii.eqb e "x" then
              match r' with
              | h1 :: h2 :: r'' =>
                  match hexByte h1 h2 with
                  | Some b => option_map (cons b) (resolveMultiline r'')
                  | None => option_map (fun x => bsl :: e :: x) (resolveMultiline r')
                  end
              | _ => option_map (fun x => bsl :: e :: x) (resolveMultiline r')
              end
            else if Ascii.eqb e "u" then None
            else option_map (fun x => bsl :: e :: x) (resolveMultiline r')
        end
      else option_map (cons c) (resolveMultiline r)
  end.

(** Type tags as the parser keeps them: none, !!null, !!str, or the tag of a number type (Y:389-421, 613). *)
Inductive tag := NoTag | TagNull | TagStr | TagS (ty : stype).
Definition allTypes : list stype :=
  [TBool; TInt U8; TInt U16; TInt U32; TInt U64; TInt I8; TInt I16; TInt I32; TInt I64; TF32; TF64; TC32; TC64].
Definition knownTag (t : text) : option tag :=
  if teqb t (lit "!!null") then Some TagNull
  else if teqb t (lit "!!str") then Some TagStr
  else option_map TagS (List.find (fun ty => teqb t (tagOf ty)) allTypes).

(** Y:615-635: the tag at the position, if any; an unknown tag is an error (None). *)
Definition parseTag (s : st) : option (tag * st) :=
  if startsWith (lit "!!") s then
    match findBy (Ascii.eqb sp) (rem s) with
    | Some n => match knownTag (firstn n (rem s)) with Some t => Some (t, consume (n + 1) s) | None => None end
    | None => match knownTag (rem s) with Some t => Some (t, consume (List.length (rem s)) s) | None => None end
    end
  else Some (NoTag, s).

(** Y:640-656, from the character after the opening quote. *)
Fixpoint findClosing (q : ascii) (esc : bool) (t : text) : option nat :=
  match t with
  | [] => None
  | c :: r =>
      if esc then option_map S (findClosing q false r)
      else if Ascii.eqb c bsl then option_map S (findClosing q true r)
      else if Ascii.eqb c q then Some 0%nat
      else option_map S (findClosing q false r)
  end.

(** Y:658-683: whether the string is quoted, and its length; None for an open quote. *)
Definition findString (t delims : text) : option (bool * nat) :=
  match t with
  | [] => Some (false, 0%nat)
  | c :: r =>
      if Ascii.eqb c quo || Ascii.eqb c apo then
        match findClosing c false r with Some n => Some (true, n) | None => None end
      else
        match findBy (member delims) t with
        | Some n => Some (false, n)
        | None => match findBy (Ascii.eqb hash) t with Some n => Some (false, n) | None => Some (false, List.length t) end
        end
  end.

(** Y:528-611: a text read as the type a tag names (Y:389-421: any other tag gives nothing). *)
Definition parseAs (F : ffmt) (tg : tag) (t : text) : option val :=
  match tg with
  | TagS TBool => option_map (fun b => VS (SBool b)) (boolText (trimAndStripComment t))
  | TagS (TInt k) => option_map (fun z => VS (SInt k z)) (parseInt k t)
  | TagS TF32 => option_map (fun x => VS (SF32 x)) (parseF32 F t)
  | TagS TF64 => option_map (fun x => VS (SF64 x)) (parseF64 F t)
  | TagS TC32 => option_map (fun p => VS (SC32 (fst p) (snd p))) (parseComplex (parseF32 F) t)
  | TagS TC64 => option_map (fun p => VS (SC64 (fst p) (snd p))) (parseComplex (parseF64 F) t)
  | TagStr => option_map VStr (resolveQuoted t)
  | _ => Some VNull
  end.

(** Y:715-744: a scalar without a tag. *)
Definition parseUntagged (F : ffmt) (quoted : bool) (t0 : text) : option val :=
  if quoted then option_map VStr (resolveQuoted t0)
  else
    let t := trimAndStripComment t0 in
    if teqb t [] || teqb t (lit "null") || teqb t (lit "Null") || teqb t (lit "NULL") || teqb t (lit "~") then Some VNull
    else match boolText t with
         | Some b => Some (VS (SBool b))
         | None =>
             match parseInt I64 t with
             | Some z => Some (VS (SInt I64 z))
             | None => match parseF64 F t with Some x => Some (VS (SF64 x)) | None => option_map VStr (resolveQuoted t) end
             end
         end.

(** Y:685-745. *)
Definition parsePlainScalar (F : ffmt) (tg : tag) (delims : text) (s : st) : option (val * st) :=
  match findString (rem s) delims with
  | None => None
  | Some (quoted, n) =>
      let o := if quoted then 1%nat else 0%nat in
      let sv := firstn n (skipn o (rem s)) in
      match (match tg with
             | NoTag => parseUntagged F quoted sv
             | TagStr => parseAs F tg (if quoted then sv else trimAndStripComment sv)
             | _ => parseAs F tg sv
             end) with
      | Some v => Some (v, consume (o + n) (consume o s))
      | None => None
      end
  end.

(** Y:776-804: the lines of a block of text; what is collected and where it stops. *)
Fixpoint blockLines (folded : bool) (ind : nat) (first : bool) (acc : text) (ls : list text) : option (text * st) :=
  match ls with
  | [] => Some (acc, mkSt None [])
  | l :: r =>
      match findBy (fun c => negb (Ascii.eqb c sp)) l with
      | None => blockLines folded ind first (acc ++ [nl]) r
      | Some n =>
          if (n <? ind)%nat then Some (acc, mkSt (Some (l, l)) r)
          else match resolveMultiline (skipn ind l) with
               | None => None
               | Some t => blockLines folded ind false (acc ++ (if folded && negb first then [sp] else []) ++ t
                                                        ++ (if folded then [] else [nl])) r
               end
      end
  end.
(** Y:807-822: trailing newlines or white space are removed. *)
Fixpoint dropWhile (p : ascii -> bool) (t : text) : text := match t with c :: r => if p c then dropWhile p r else t | [] => [] end.
Definition trimEnd (p : ascii -> bool) (t : text) : text := rev (dropWhile p (rev t)).
Definition blockEnd (folded keep : bool) (t : text) : text :=
  if folded then (if keep then t ++ [nl] else trimEnd isspace t)
  else if keep then t else trimEnd (Ascii.eqb nl) t.

(** Y:747-844. *)
Definition parseScalar (F : ffmt) (tg : tag) (ind : Z) (s0 : st) : option (val * st) :=
  let s := cws s0 in
  if eod s then Some (VNull, s)
  else if (linesLeft s <? linesLeft s0)%nat && notDeeper (currentIndent [sp] s) ind then Some (VNull, s)
  else if (match tg with NoTag | TagStr => true | _ => false end) && (starts (lit "|") (rem s) || starts (lit ">") (rem s)) then
    let folded := starts (lit ">") (rem s) in
    let s1 := consume 1 s in
    let keep := negb (startsWith (lit "-") s1) in
    let s2 := consumeSpaces (if keep then s1 else consume 1 s1) in
    (* an open quote counts as a length, too (Y:766-769) *)
    if match findString (rem s2) [] with Some (_, n) => (0 <? n)%nat | None => true end then None
    else match blockLines folded (Z.to_nat (ind + 2)) true [] (nxt s2) with
         | None => None
         | Some (t, s3) => Some (VStr (blockEnd folded keep t), consumeSpaces s3)
         end
  else
    match parsePlainScalar F tg [] s with
    | None => None
    | Some (v, s1) =>
        let s2 := consumeSpaces s1 in
        if negb (eol s2) && match findString (rem s2) [] with Some (q, n) => q || (0 <? n)%nat | None => true end then None
        else Some (v, nextLine s2)
    end.

(* ------------------------------------------------------------------ keys and kinds *)

(** Y:874-885. *)
Fixpoint colonPos (t : text) : option nat :=
  match t with
  | [] => None
  | c :: r => if Ascii.eqb c colon && (match r with [] => true | d :: _ => isspace d end) then Some 0%nat
              else option_map S (colonPos r)
  end.

(** Y:848-896. The extra delimiters only matter for the length of an unquoted string, which is not used. *)
Definition parseKey (s0 : st) : option (text * st) :=
  let s := consumeSpaces s0 in
  if startsWith (lit "-") s then None
  else match findString (rem s) [] with
       | None => None
       | Some (true, n) =>
           match resolveQuoted (firstn n (skipn 1 (rem s))) with
           | None => None
           | Some k =>
               let s1 := consumeSpaces (consume (2 + n) s) in
               if startsWithToken (lit ":") s1 then Some (k, consume 1 s1) else None
           end
       | Some (false, _) =>
           match colonPos (rem s) with
           | None => None
           | Some n =>
               if match findBy (Ascii.eqb hash) (rem s) with Some h => (h <? n)%nat | None => false end then None
               else Some (trim (firstn n (rem s)), consume (n + 1) s)
           end
       end.

(** Y:846, 898-920. *)
Inductive kind := KList | KMap | KScalar.
Definition peek (s0 : st) (prev : Z) : kind :=
  let s := cws s0 in
  if eod s then KScalar
  else if (linesLeft s <? linesLeft s0)%nat && notDeeper (currentIndent [sp] s) prev then KScalar
  else if startsWith (lit "[") s || startsWith (lit "- ") s || teqb (rem s) (lit "-") then KList
  else if startsWith (lit "{") s then KMap
  else match parseKey s with Some _ => KMap | None => KScalar end.

(** insert_or_assign (Y:1009, 1108, 1119, 1127): an existing entry keeps its place. *)
Fixpoint put (m : list (text * val)) (k : text) (v : val) : list (text * val) :=
  match m with
  | [] => [(k, v)]
  | (k', v') :: r => if teqb k' k then (k', v) :: r else (k', v') :: put r k v
  end.

(** Y:922-936, 1230-1233. *)
Definition convertList (tg : tag) (vs : list val) : val :=
  match tg with
  | NoTag => VList vs
  | TagNull => VNull
  | TagStr => VList (map (fun v => match v with VStr t => VStr t | _ => VStr [] end) vs)
  | TagS ty =>
      let xs := flat_map (fun v => match v with VS s => if stypeEq (typeOf s) ty then [s] else [] | _ => [] end) vs in
      VTen ty [List.length xs] xs
  end.

(* ------------------------------------------------------------------ maps, lists, flow style *)

(** Outcome of the recursive parsers. *)
Inductive res (A : Type) := Ok (a : A) | Err | Fuel.
Arguments Ok {A} a.
Arguments Err {A}.
Arguments Fuel {A}.

(** Value of an attempt. *)
Definition ofOpt {A} (o : option A) : res A := match o with Some a => Ok a | None => Err end.
Definition bind {A B} (r : res A) (f : A -> res B) : res B := match r with Ok a => f a | Err => Err | Fuel => Fuel end.
Definition isTagged (t : tag) : bool := match t with NoTag => false | _ => true end.

(** Y:940-1033, one round of the loop and what follows it: [asMap] selects the form, [start] is the number of lines left at
    the opening bracket; the entries so far are in [am] or [al]. *)
Fixpoint flow (F : ffmt) (fuel : nat) (asMap : bool) (tg : tag) (parent : Z) (start : nat) (am : list (text * val))
  (al : list val) (s0 : st) {struct fuel} : res (val * st) :=
  let done s := Ok (if asMap then VMap am else convertList tg al, s) in
  match fuel with
  | O => Fuel
  | S f =>
      if eod s0 then done s0
      else
        let s := cws s0 in
        let close := if asMap then lit "}" else lit "]" in
        if eod s then Err
        else if startsWith close s then done (consume 1 s)
        else if (linesLeft s <? start)%nat && notDeeper (currentIndent [sp] s) parent then Err
        else
          bind (if asMap then ofOpt (option_map (fun p => (fst p, cws (snd p))) (parseKey s)) else Ok ([], s)) (fun ks =>
          bind (ofOpt (parseTag (snd ks))) (fun ts =>
          if isTagged tg && isTagged (fst ts) then Err
          else
            let lt := if isTagged (fst ts) then fst ts else tg in
            let s1 := cws (snd ts) in
            bind (if startsWith (lit "[") s1 then flow F f false lt parent (linesLeft s1) [] [] (consume 1 s1)
                  else if startsWith (lit "{") s1 then flow F f true lt parent (linesLeft s1) [] [] (consume 1 s1)
                  else ofOpt (parsePlainScalar F lt (if asMap then lit ",}" else lit ",]") s1)) (fun vs =>
            let am' := if asMap then put am (fst ks) (fst vs) else am in
            let al' := if asMap then al else al ++ [fst vs] in
            let s2 := cws (snd vs) in
            if startsWith (lit ",") s2 then flow F f asMap tg parent start am' al' (consume 1 s2)
            else if startsWith close s2 then Ok (if asMap then VMap am' else convertList tg al', consume 1 s2)
            else Err)))
  end.

(** Y:1037-1053 and 1137-1141: a flow map or list up to the end of its line. *)
Definition flowLine (r : res (val * st)) : res (val * st) := bind r (fun vs => Ok (fst vs, nextLine (snd vs))).

(** Y:1035-1133 ([asMap]) and Y:1135-1234: [start] for the part before the loop, which handles flow style; then one round
    per unit of fuel. *)
Fixpoint block (F : ffmt) (fuel : nat) (asMap start first : bool) (tg : tag) (parent : Z) (am : list (text * val))
  (al : list val) (s0 : st) {struct fuel} : res (val * st) :=
  match fuel with
  | O => Fuel
  | S f =>
      let done s := Ok (if asMap then VMap am else convertList tg al, s) in
      let sa := if start then cws s0 else s0 in
      if start && startsWith (if asMap then lit "{" else lit "[") sa then
        flowLine (flow F f asMap (if asMap then NoTag else tg) parent (linesLeft sa) [] [] (consume 1 sa))
      else if eod sa then done sa
      else if asMap && startsWith (lit "---") sa then Err
      else
        let s := cws sa in
        if eod s then done s
        else if isIgnorableLine (full s) then block F f asMap false first tg parent am al (nextLine s)
        else
          match currentIndent (if asMap && first then lit " -" else lit " ") s with
          | None => block F f asMap false first tg parent am al (nextLine s)
          | Some n =>
              if notDeeper (Some n) parent then done s
              else
                let ind := Z.of_nat n in
                if asMap then
                  bind (ofOpt (parseKey s)) (fun ks =>
                  bind (ofOpt (parseTag (consumeSpaces (snd ks)))) (fun ts =>
                  let s1 := consumeSpaces (snd ts) in
                  bind (match peek s1 ind with
                        | KList => block F f false true true (fst ts) ind [] [] s1
                        | KMap => if isTagged (fst ts) then Err else block F f true true true NoTag ind [] [] s1
                        | KScalar => ofOpt (parseScalar F (fst ts) ind s1)
                        end) (fun vs =>
                  block F f true false false tg parent (put am (fst ks) (fst vs)) al (snd vs))))
                else if negb (startsWith (lit "-") s) then Err
                else
                  bind (ofOpt (parseTag (consumeSpaces (consume 1 s)))) (fun ts =>
                  if isTagged tg && isTagged (fst ts) then Err
                  else
                    let lt := if isTagged tg then tg else fst ts in
                    let s1 := consumeSpaces (snd ts) in
                    bind (match peek s1 ind with
                          | KList => if isTagged tg then Err else block F f false true true lt ind [] [] s1
                          | KMap => if isTagged (fst ts) then Err else block F f true true true NoTag ind [] [] s1
                          | KScalar => ofOpt (parseScalar F lt ind s1)
                          end) (fun vs =>
                    block F f false false false tg parent am (al ++ [fst vs]) (snd vs)))
          end
  end.

(** Y:1249-1255. *)
Definition deserializeWith (F : ffmt) (fuel : nat) (t : text) : res (list (text * val)) :=
  let s := cws (atLines (split nl t)) in
  let s' := if startsWith (lit "---") s then consume 3 s else s in
  bind (block F fuel true true true NoTag (-1) [] [] s') (fun vs => match fst vs with VMap m => Ok m | _ => Err end).
Definition deserialize (F : ffmt) (t : text) : res (list (text * val)) := deserializeWith F (2 * List.length t + 3) t.
