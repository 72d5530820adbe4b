(** What the YAML properties are about: which keys, strings, numbers and values are meant; nothing here mentions how texts
    are written or read. *)
From Coq Require Import List NArith ZArith Ascii String Bool.
From Verif Require Import YamlModel.
Import ListNotations.

(** Printable ASCII, and the two special characters used below. *)
Definition printable (c : ascii) : Prop := (32 <= N_of_ascii c <= 126)%N.

(* ------------------------------------------------------------------ keys *)

(** A key that holds a colon or something unprintable (the writer puts it in quotes). *)
Definition oddKey (k : text) : Prop := In ":"%char k \/ exists c, In c k /\ ~ printable c.

(** Any other key: no '#', no blank at either end, and no leading dash, quote or bracket. *)
Definition plainKey (k : text) : Prop :=
  ~ In "#"%char k
  /\ (forall c r, k = c :: r -> ~ In c [" "; "-"; """"; "'"; "["; "{"]%char)
  /\ (forall c r, k = r ++ [c] -> c <> " "%char).
Definition goodKey (k : text) : Prop := oddKey k \/ plainKey k.

(* ------------------------------------------------------------------ strings *)

(** A string that is written as a block of lines: it holds a line break, and nothing unprintable otherwise. *)
Definition blockString (t : text) : Prop := In "010"%char t /\ Forall (fun c => printable c \/ c = "010"%char) t.

(** No line that consists of blanks only (a line without any character is fine). *)
Definition noBlankLine (t : text) : Prop :=
  forall a n b, t = a ++ repeat " "%char (S n) ++ b ->
    (a = [] \/ exists a', a = a' ++ ["010"%char]) -> (b = [] \/ exists b', b = "010"%char :: b') -> False.

(** No backslash before '0', 'x' or 'u'. *)
Definition noEscape (t : text) : Prop :=
  forall a c b, t = a ++ "\"%char :: c :: b -> ~ In c ["0"; "x"; "u"]%char.

Definition goodString (t : text) : Prop := blockString t -> noBlankLine t /\ noEscape t.

(* ------------------------------------------------------------------ numbers *)

(** The text of a floating-point number: digits, letters, dots and signs; it does not begin with a dot. *)
Definition numberText (t : text) : Prop :=
  Forall (fun c => In c (list_ascii_of_string "0123456789abcdefghijklmnopqrstuvwxyz.+-")) t
  /\ exists c r, (t = c :: r \/ t = "-"%char :: c :: r) /\ In c (list_ascii_of_string "0123456789abcdefghijklmnopqrstuvwxyz").

(** Writing and reading a finite number gives the number back (for the digits this says nothing about how). *)
Definition exact32 (F : ffmt) (x : N) : Prop := numberText (show32 F x) /\ read32 F (show32 F x) = Some x.
Definition exact64 (F : ffmt) (x : N) : Prop := numberText (show64 F x) /\ read64 F (show64 F x) = Some x.

(** Bit patterns of +inf, -inf, the quiet NaN; and of NaNs and infinities in general. *)
Definition special32 (x : N) : Prop := x = 0x7f800000%N \/ x = 0xff800000%N \/ x = 0x7fc00000%N.
Definition special64 (x : N) : Prop := x = 0x7ff0000000000000%N \/ x = 0xfff0000000000000%N \/ x = 0x7ff8000000000000%N.
Definition finite32 (x : N) : Prop := ((x / 0x800000) mod 0x100 <> 0xff)%N.
Definition finite64 (x : N) : Prop := ((x / 0x10000000000000) mod 0x800 <> 0x7ff)%N.

(** The integers of a type. *)
Definition intIn (k : ikind) (z : Z) : Prop :=
  match k with
  | I8 => -0x80 <= z <= 0x7f | U8 => 0 <= z <= 0xff
  | I16 => -0x8000 <= z <= 0x7fff | U16 => 0 <= z <= 0xffff
  | I32 => -0x80000000 <= z <= 0x7fffffff | U32 => 0 <= z <= 0xffffffff
  | I64 => -0x8000000000000000 <= z <= 0x7fffffffffffffff | U64 => 0 <= z <= 0xffffffffffffffff
  end%Z.

Definition goodScal (F : ffmt) (s : scal) : Prop :=
  match s with
  | SBool _ => True
  | SInt k z => intIn k z
  | SF32 x => special32 x \/ finite32 x /\ exact32 F x
  | SF64 x => special64 x \/ finite64 x /\ exact64 F x
  | SC32 a b => exact32 F a /\ exact32 F b
  | SC64 a b => exact64 F a /\ exact64 F b
  end.

(* ------------------------------------------------------------------ values *)

(** Values made of such keys, strings and numbers: keys of a map differ, the items of a tensor have its type, and the
    tensor has one dimension. *)
Inductive good (F : ffmt) : val -> Prop :=
| gNull : good F VNull
| gScal s : goodScal F s -> good F (VS s)
| gStr t : goodString t -> good F (VStr t)
| gMap m : NoDup (map fst m) -> Forall (fun kv => goodKey (fst kv)) m -> Forall (fun kv => good F (snd kv)) m -> good F (VMap m)
| gTen ty xs : Forall (fun s => typeOf s = ty /\ goodScal F s) xs -> good F (VTen ty [List.length xs] xs)
| gList vs : Forall (good F) vs -> good F (VList vs).

(** Values as a program can hold them at all: the keys of every map differ, integers lie in the range of their type, the
    items of a tensor have its type; [sound] values hold no tensor of strings and only one-dimensional tensors. *)
Definition inType (s : scal) : Prop := match s with SInt k z => intIn k z | _ => True end.
Inductive sound : val -> Prop :=
| wNull : sound VNull
| wScal s : inType s -> sound (VS s)
| wStr t : sound (VStr t)
| wMap m : NoDup (map fst m) -> Forall (fun kv => sound (snd kv)) m -> sound (VMap m)
| wTen ty xs : Forall (fun s => typeOf s = ty /\ inType s) xs -> sound (VTen ty [List.length xs] xs)
| wList vs : Forall sound vs -> sound (VList vs).
