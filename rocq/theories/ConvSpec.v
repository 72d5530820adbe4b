(** Vocabulary of the statements about checked conversions: what number a value is, which numbers a type holds, what
    it means for a text to be a decimal integer.  Written without the helper functions of the model (only its value
    and type constructors are used). *)
From Coq Require Import List ZArith Lia Bool QArith Qabs.
From Verif Require Import ConvModel.
Import ListNotations.
Local Open Scope Z_scope.

(** Range of an integer type, in numbers. *)
Definition holdsInt (i : ity) (z : Z) : Prop :=
  match i with
  | I8 => -128 <= z <= 127
  | I16 => -32768 <= z <= 32767
  | I32 => -2147483648 <= z <= 2147483647
  | I64 => -9223372036854775808 <= z <= 9223372036854775807
  | U8 => 0 <= z <= 255
  | U16 => 0 <= z <= 65535
  | U32 => 0 <= z <= 4294967295
  | U64 => 0 <= z <= 18446744073709551615
  end.

Definition signedType (i : ity) : Prop := i = I8 \/ i = I16 \/ i = I32 \/ i = I64.

(** Bits of magnitude: the type holds the numbers below 2 to this power. *)
Definition magnitudeBits (i : ity) : Z :=
  match i with I8 => 7 | I16 => 15 | I32 => 31 | I64 => 63 | U8 => 8 | U16 => 16 | U32 => 32 | U64 => 64 end.

(** The rational number m * 2^e. *)
Definition fval (m e : Z) : Q := (inject_Z m * (2 # 1) ^ e)%Q.

(** Bits in the mantissa. *)
Definition precision (f : fty) : Z := match f with F32 => 24 | F64 => 53 end.

(** Finite numbers of the two formats. *)
Definition inFormat (f : fty) (m e : Z) : Prop :=
  match f with
  | F32 => Z.abs m < 2 ^ 24 /\ -149 <= e <= 104
  | F64 => Z.abs m < 2 ^ 53 /\ -1074 <= e <= 971
  end.

(** A value of the format: a NaN, an infinity, or a finite number of it. *)
Definition wfFlt (f : fty) (x : flt) : Prop := match x with FFin m e => inFormat f m e | _ => True end.

(** The greatest finite number of a format. *)
Definition greatest (f : fty) : Q :=
  match f with F32 => fval (2 ^ 24 - 1) 104 | F64 => fval (2 ^ 53 - 1) 971 end.

(** [x] is the number [q]. *)
Definition fltIs (x : flt) (q : Q) : Prop := match x with FFin m e => (fval m e == q)%Q | _ => False end.

(** [y] is a number of format [f] and no number of the format is closer to [q]. *)
Definition nearestIn (f : fty) (q : Q) (y : flt) : Prop :=
  match y with
  | FFin m e =>
      inFormat f m e /\ forall mz ez, inFormat f mz ez -> (Qabs (q - fval m e) <= Qabs (q - fval mz ez))%Q
  | _ => False
  end.

(** White space of the C locale: space, and the characters 9 to 13. *)
Definition wsOnly (s : list Z) : Prop := Forall (fun c => c = 32 \/ 9 <= c <= 13) s.

(** A comment: nothing, or '#' and anything after it. *)
Definition comment (s : list Z) : Prop := s = [] \/ exists r, s = 35 :: r.

(** Decimal digits, and the number they write. *)
Definition digitsOnly (s : list Z) : Prop := Forall (fun c => 48 <= c <= 57) s.
Fixpoint decimal (acc : Z) (s : list Z) : Z :=
  match s with [] => acc | c :: r => decimal (10 * acc + (c - 48)) r end.

(** [s] writes an integer: white space, an optional minus sign, digits, white space, comment. *)
Definition writesInt (s : list Z) (neg : bool) (z : Z) : Prop :=
  exists l ds t c, wsOnly l /\ wsOnly t /\ comment c /\ digitsOnly ds /\ ds <> [] /\
    s = l ++ (if neg then [45] else []) ++ ds ++ t ++ c /\ z = if neg then - decimal 0 ds else decimal 0 ds.

(** [s] spells the word [w] (given in small letters), each letter small or capital. *)
Definition spells (w s : list Z) : Prop := Forall2 (fun c d => d = c \/ (97 <= c <= 122 /\ d = c - 32)) w s.

(** The order in which a narrower type is preferred: width first, signed before unsigned. *)
Definition rank (i : ity) : Z :=
  match i with I8 => 0 | U8 => 1 | I16 => 2 | U16 => 3 | I32 => 4 | U32 => 5 | I64 => 6 | U64 => 7 end.

(** [x] and [y] denote the same number (or are the same NaN / infinity); complex numbers part by part, a real one having
    imaginary part zero; a boolean only equals itself. *)
Definition sameFlt (x y : flt) : Prop :=
  match x, y with
  | FFin m e, FFin m' e' => (fval m e == fval m' e')%Q
  | FNaN, FNaN => True
  | FInf a, FInf b => a = b
  | _, _ => False
  end.
Definition sameNumber (x y : elt) : Prop :=
  match x, y with
  | XBool a, XBool b => a = b
  | XInt _ a, XInt _ b => a = b
  | XInt _ a, XFlt _ b => fltIs b (inject_Z a)
  | XFlt _ a, XFlt _ b => sameFlt a b
  | XCplx _ a b, XCplx _ c d => sameFlt a c /\ sameFlt b d
  | _, _ => False
  end.

(** Elements that their type can hold. *)
Definition wfElt (x : elt) : Prop :=
  match x with
  | XBool _ => True
  | XInt i z => holdsInt i z
  | XFlt f x => wfFlt f x
  | XCplx f a b => wfFlt f a /\ wfFlt f b
  end.
