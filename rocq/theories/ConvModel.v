(** Model of the checked conversions between the scalar types of a property value:
    - core/include/gnuradio-4.0/PmtTypeHelpers.hpp (convert_safely, trimAndCutComment, inRange,
      parseToMinimalNumeric), and the dispatch of a stored value through ValueVisitor
      (core/include/gnuradio-4.0/ValueHelper.hpp:1062-1155, core/src/ValueHelper.cpp:34-100);
    - core/include/gnuradio-4.0/ValueHelper.hpp (convertTo: conversion policies, tensor to vector / array).

    Integers are mathematical integers tagged with their C++ type.  A finite floating-point number is a pair
    (m, e) standing for m * 2^e; the sign of a zero and the payload of a NaN are not kept.  Error messages are
    not kept.  A C++ [static_cast] whose behaviour is undefined gives [UB]. *)
From Coq Require Import List ZArith Lia Bool.
Import ListNotations.
Local Open Scope Z_scope.

(** The eight integer types a value may hold (Value.hpp, ValueType; ValueHelper.hpp:1071-1078). *)
Inductive ity := I8 | I16 | I32 | I64 | U8 | U16 | U32 | U64.

(** [std::is_signed_v], used at PmtTypeHelpers.hpp:164. *)
Definition isSigned (i : ity) : bool :=
  match i with I8 | I16 | I32 | I64 => true | _ => false end.

(** Width in bits: [sizeof(T) * 8]. *)
Definition width (i : ity) : Z :=
  match i with I8 | U8 => 8 | I16 | U16 => 16 | I32 | U32 => 32 | I64 | U64 => 64 end.

(** [std::numeric_limits<T>::digits] (PmtTypeHelpers.hpp:169-170). *)
Definition digits (i : ity) : Z := if isSigned i then width i - 1 else width i.

(** [std::numeric_limits<T>::lowest()] and [::max()] (PmtTypeHelpers.hpp:174). *)
Definition iMin (i : ity) : Z := if isSigned i then - 2 ^ (width i - 1) else 0.
Definition iMax (i : ity) : Z := 2 ^ digits i - 1.

(** [static_cast<T>(z)] between integer types: reduction modulo 2^width into the range of T (C++20 [conv.integral]). *)
Definition castInt (i : ity) (z : Z) : Z :=
  let r := z mod 2 ^ width i in
  if isSigned i then (if r <? 2 ^ (width i - 1) then r else r - 2 ^ width i) else r.

(** The two floating-point types: IEEE binary32 and binary64. *)
Inductive fty := F32 | F64.

(** [std::numeric_limits<T>::digits] of a floating-point type (PmtTypeHelpers.hpp:188). *)
Definition mant (f : fty) : Z := match f with F32 => 24 | F64 => 53 end.
(** Least and greatest exponent of the last mantissa bit (IEEE 754: 2-emax-(p-1) and emax-(p-1)). *)
Definition eMin (f : fty) : Z := match f with F32 => -149 | F64 => -1074 end.
Definition eMax (f : fty) : Z := match f with F32 => 104 | F64 => 971 end.

(** A floating-point value; [FFin m e] is m * 2^e. *)
Inductive flt := FNaN | FInf (neg : bool) | FFin (m e : Z).

(** IEEE comparison [x <= y] of two finite values (as used at PmtTypeHelpers.hpp:227 and 239). *)
Definition finLe (m1 e1 m2 e2 : Z) : bool :=
  let e := Z.min e1 e2 in m1 * 2 ^ (e1 - e) <=? m2 * 2 ^ (e2 - e).

(** m / 2^k rounded to the nearest integer, ties to even (IEEE default rounding), for k > 0. *)
Definition rne (m k : Z) : Z :=
  let q := m / 2 ^ k in
  let r := m mod 2 ^ k in
  let h := 2 ^ (k - 1) in
  if r <? h then q else if h <? r then q + 1 else if Z.even q then q else q + 1.

(** m * 2^e rounded into the format [f], as a hardware conversion does: [static_cast<float>(...)] at
    PmtTypeHelpers.hpp:189, 200, 227 and 240. *)
Definition roundTo (f : fty) (m e : Z) : flt :=
  if m =? 0 then FFin 0 0
  else
    let k := Z.max (Z.log2 (Z.abs m) + 1 - mant f) (eMin f - e) in
    let '(m', e') :=
      if k <=? 0 then (m * 2 ^ (- k), e + k)
      else
        let q := rne m k in
        if Z.abs q =? 2 ^ mant f then (q / 2, e + k + 1) else (q, e + k) in
    if eMax f <? e' then FInf (m <? 0) else FFin m' e'.

(** [static_cast<F>(z)] from an integer (PmtTypeHelpers.hpp:189, 200, 227). *)
Definition castIntFlt (f : fty) (z : Z) : flt := roundTo f z 0.

(** [static_cast<F>(x)] between floating-point types (PmtTypeHelpers.hpp:240). *)
Definition castFltFlt (f : fty) (x : flt) : flt :=
  match x with FFin m e => roundTo f m e | y => y end.

(** Greatest finite value of a format: [std::numeric_limits<T>::max()] (PmtTypeHelpers.hpp:239). *)
Definition fMaxM (f : fty) : Z := 2 ^ mant f - 1.
Definition fMaxE (f : fty) : Z := eMax f.

(** [std::nearbyint] of a finite value under the default rounding mode (PmtTypeHelpers.hpp:230). *)
Definition nearbyint (m e : Z) : Z := if 0 <=? e then m * 2 ^ e else rne m (- e).

(** Comparison [x == (double)z] of a finite value with an integral one (PmtTypeHelpers.hpp:230). *)
Definition finEqZ (m e z : Z) : bool := finLe m e z 0 && finLe z 0 m e.

(** The integer a finite value is truncated to. *)
Definition truncZ (m e : Z) : Z := if 0 <=? e then m * 2 ^ e else Z.quot m (2 ^ (- e)).

(** [static_cast<T>(x)] from floating point to integer: truncation; undefined outside the target range
    (C++20 [conv.fpint]/1). *)
Definition castFltInt (lo hi : Z) (m e : Z) : option Z :=
  let t := truncZ m e in
  if (lo <=? t) && (t <=? hi) then Some t else None.

(** Conversion targets: scalar types, [std::string], tensors by an element tag, [ValueMap]. *)
Inductive tgt := TBool | TInt (i : ity) | TFlt (f : fty) | TCplx (f : fty) | TStr | TTensor (tag : nat) | TMap.

(** Values, at the C++ types [convert_safely] may be called with; [VView] is [std::string_view] and [VVar] is
    [std::variant<S>] holding the given value.  Tensors and maps are opaque (their bytes). *)
Inductive val :=
| VBool (b : bool) | VInt (i : ity) (z : Z) | VFlt (f : fty) (x : flt) | VCplx (f : fty) (re im : flt)
| VStr (s : list Z) | VView (s : list Z) | VVar (v : val)
| VTensor (tag : nat) (data : list Z) | VMap (data : list Z) | VMono.

(** Result of a conversion: value, [std::unexpected], or undefined behaviour. *)
Inductive cres := Ok (v : val) | Err | UB.

(** The target type a value already has; [None] for the C++ types that are no target (string_view, variant, monostate). *)
Definition typeOf (v : val) : option tgt :=
  match v with
  | VBool _ => Some TBool | VInt i _ => Some (TInt i) | VFlt f _ => Some (TFlt f) | VCplx f _ _ => Some (TCplx f)
  | VStr _ => Some TStr | VTensor g _ => Some (TTensor g) | VMap _ => Some TMap
  | VView _ | VVar _ | VMono => None
  end.

Scheme Equality for ity.
Scheme Equality for fty.

(** [std::is_same_v] on targets (PmtTypeHelpers.hpp:143). *)
Definition tgt_eqb (a b : tgt) : bool :=
  match a, b with
  | TBool, TBool | TStr, TStr | TMap, TMap => true
  | TInt i, TInt j => ity_beq i j
  | TFlt f, TFlt g | TCplx f, TCplx g => fty_beq f g
  | TTensor n, TTensor m => Nat.eqb n m
  | _, _ => false
  end.

(** Integer source, integer target (PmtTypeHelpers.hpp:163-180); [T] is an integer type. *)
Definition convIntInt (s t : ity) (z : Z) : cres :=
  if negb (isSigned t) && isSigned s && (z <? 0) then Err
  else if digits s <=? digits t then Ok (VInt t (castInt t z))
  else
    let w := castInt I64 z in
    if (iMin t <=? w) && (w <=? iMax t) then Ok (VInt t (castInt t z)) else Err.

(** The same branch with [T = bool] (an unsigned integral type with one digit; the cast is [z != 0]). *)
Definition convIntBool (s : ity) (z : Z) : cres :=
  if isSigned s && (z <? 0) then Err
  else
    let w := castInt I64 z in
    if (0 <=? w) && (w <=? 1) then Ok (VBool (negb (z =? 0))) else Err.

(** [std::bit_width] of a non-negative integer. *)
Definition bitWidth (z : Z) : Z := if z =? 0 then 0 else Z.log2 z + 1.

(** [WideType] (PmtTypeHelpers.hpp:192): [long long] for the types narrower than it, the type itself otherwise. *)
Definition wideType (s : ity) : ity := if width s <? 64 then I64 else s.

(** Integer source, floating-point target (PmtTypeHelpers.hpp:183-203). *)
Definition convIntFlt (s : ity) (f : fty) (z : Z) : cres :=
  if digits s <=? mant f then Ok (VFlt f (castIntFlt f z))
  else
    let w := castInt (wideType s) z in
    if w =? iMin (wideType s) then Err
    else
      let magnitude := if w <? 0 then - w else w in
      if bitWidth magnitude <=? mant f then Ok (VFlt f (castIntFlt f z)) else Err.

(** Floating-point source, integer target with range [lo, hi] (PmtTypeHelpers.hpp:222-235). *)
Definition convFltInt (sf : fty) (lo hi : Z) (mk : Z -> val) (x : flt) : cres :=
  match x with
  | FFin m e =>
      match castIntFlt sf lo, castIntFlt sf hi with
      | FFin ml el, FFin mh eh =>
          if negb (finLe ml el m e) || negb (finLe m e mh eh) then Err
          else if negb (finEqZ m e (nearbyint m e)) then Err
          else match castFltInt lo hi m e with Some z => Ok (mk z) | None => UB end
      | _, _ => Err
      end
  | _ => Err
  end.

(** Floating-point source, floating-point target (PmtTypeHelpers.hpp:237-243).  The comparison is made in
    [long double], which represents every float and double exactly. *)
Definition convFltFlt (f : fty) (x : flt) : cres :=
  match x with
  | FFin m e =>
      if finLe (- fMaxM f) (fMaxE f) m e && finLe m e (fMaxM f) (fMaxE f) then Ok (VFlt f (castFltFlt f x)) else Err
  | _ => Err
  end.

(** [static_cast<bool>] of the range [0, 1]. *)
Definition mkBool (z : Z) : val := VBool (negb (z =? 0)).

(** [T{conv.value()}]: the real part, zero imaginary part (PmtTypeHelpers.hpp:205-211 and 245-251). *)
Definition toCplx (r : cres) : cres :=
  match r with Ok (VFlt f x) => Ok (VCplx f x (FFin 0 0)) | UB => UB | _ => Err end.

(** [std::isspace] in the C locale. *)
Definition isSpace (c : Z) : bool := (c =? 32) || ((9 <=? c) && (c <=? 13)).

(** Drop the leading characters that satisfy [p] ([std::ranges::find_if_not], PmtTypeHelpers.hpp:81). *)
Fixpoint dropWhile (p : Z -> bool) (s : list Z) : list Z :=
  match s with c :: r => if p c then dropWhile p r else s | [] => [] end.

(** Everything before the first '#' (PmtTypeHelpers.hpp:84-86). *)
Fixpoint beforeHash (s : list Z) : list Z :=
  match s with c :: r => if c =? 35 then [] else c :: beforeHash r | [] => [] end.

(** [trimAndCutComment] (PmtTypeHelpers.hpp:77-92). *)
Definition trimAndCutComment (s : list Z) : list Z :=
  let s1 := dropWhile isSpace s in
  let s2 := beforeHash s1 in
  rev (dropWhile isSpace (rev s2)).

(** A decimal digit. *)
Definition isDigit (c : Z) : bool := (48 <=? c) && (c <=? 57).

(** Longest run of leading decimal digits: value accumulated, and the rest of the text. *)
Fixpoint readDigits (acc : Z) (s : list Z) : Z * list Z :=
  match s with
  | c :: r => if isDigit c then readDigits (10 * acc + (c - 48)) r else (acc, s)
  | [] => (acc, [])
  end.

(** Outcome of [std::from_chars]: error code, and the text from [ptr] on. *)
Inductive fc := FcInvalid | FcRange (rest : list Z) | FcOk (v : Z) (rest : list Z).

(** [std::from_chars(first, last, T&, 10)] for an integer type with the given signedness and range
    ([charconv.from.chars]: a minus sign only for signed types, no plus sign, no leading white space). *)
Definition fromChars (sgn : bool) (lo hi : Z) (s : list Z) : fc :=
  let neg := match s with c :: _ => sgn && (c =? 45) | [] => false end in
  let body := if neg then tl s else s in
  match body with
  | c :: _ =>
      if isDigit c then
        let '(v, rest) := readDigits 0 body in
        let v := if neg then - v else v in
        if (lo <=? v) && (v <=? hi) then FcOk v rest else FcRange rest
      else FcInvalid
  | [] => FcInvalid
  end.

(** String source, integer target other than bool (PmtTypeHelpers.hpp:307-318). *)
Definition convStrInt (t : ity) (s : list Z) : cres :=
  match fromChars (isSigned t) (iMin t) (iMax t) (trimAndCutComment s) with
  | FcInvalid => Err
  | FcRange _ => Err
  | FcOk v [] => Ok (VInt t v)
  | FcOk _ (_ :: _) => Err
  end.

(** [std::tolower] in the C locale. *)
Definition toLower (c : Z) : Z := if (65 <=? c) && (c <=? 90) then c + 32 else c.

(** The texts "true", "1", "false", "0". *)
Definition sTrue : list Z := [116; 114; 117; 101].
Definition sOne : list Z := [49].
Definition sFalse : list Z := [102; 97; 108; 115; 101].
Definition sZero : list Z := [48].

(** String equality. *)
Fixpoint strEqb (a b : list Z) : bool :=
  match a, b with
  | [], [] => true
  | x :: a', y :: b' => (x =? y) && strEqb a' b'
  | _, _ => false
  end.

(** String source, bool target (PmtTypeHelpers.hpp:331-340). *)
Definition convStrBool (s : list Z) : cres :=
  let l := map toLower s in
  if strEqb l sTrue || strEqb l sOne then Ok (VBool true)
  else if strEqb l sFalse || strEqb l sZero then Ok (VBool false)
  else Err.

(** [convert_safely<T>(std::variant<S>{v})], as the function calls itself for the parts of a complex number
    (PmtTypeHelpers.hpp:265, 269, 281): the source type is the variant, which is none of the types the function
    handles, and there is no overload for variants, so the call ends in the last fallback (line 356). *)
Definition convVariant (t : tgt) (v : val) : cres := Err.

(** [std::imag(srcValue) != 0] (PmtTypeHelpers.hpp:277); a NaN differs from zero. *)
Definition nonZero (x : flt) : bool := match x with FFin m _ => negb (m =? 0) | _ => true end.

(** [convert_safely<T, strictCheck>(const From&)] (PmtTypeHelpers.hpp:136-357).  The parser for floating-point text
    ([parseStringToFloat], lines 94-132) is library code: it is the argument [pf].  Enumerations (string to enum and
    enum to string, lines 293-305 and 347-352) are not modelled. *)
Definition convertSafely (pf : fty -> list Z -> option flt) (strict : bool) (t : tgt) (v : val) : cres :=
  if match typeOf v with Some s => tgt_eqb s t | None => false end then Ok v
  else if strict then Err
  else
    match v with
    | VBool b =>
        match t with
        | TStr => Ok (VStr (if b then sTrue else sFalse))
        | _ => Err
        end
    | VInt s z =>
        match t with
        | TBool => convIntBool s z
        | TInt i => convIntInt s i z
        | TFlt f => convIntFlt s f z
        | TCplx f => toCplx (convIntFlt s f z)
        | _ => Err
        end
    | VFlt sf x =>
        match t with
        | TBool => convFltInt sf 0 1 mkBool x
        | TInt i => convFltInt sf (iMin i) (iMax i) (VInt i) x
        | TFlt f => convFltFlt f x
        | TCplx f => if fty_beq sf f then toCplx (Ok (VFlt f x)) else toCplx (convFltFlt f x)
        | _ => Err
        end
    | VCplx sf re im =>
        match t with
        | TCplx f =>
            match convVariant (TFlt f) (VFlt sf re) with
            | Ok (VFlt _ re') =>
                match convVariant (TFlt f) (VFlt sf im) with Ok (VFlt _ im') => Ok (VCplx f re' im') | _ => Err end
            | _ => Err
            end
        | TBool | TInt _ | TFlt _ => if nonZero im then Err else convVariant t (VFlt sf re)
        | _ => Err
        end
    | VStr s =>
        match t with
        | TInt i => convStrInt i s
        | TFlt f => match pf f (trimAndCutComment s) with Some x => Ok (VFlt f x) | None => Err end
        | TBool => convStrBool s
        | _ => Err
        end
    | VView _ | VVar _ | VTensor _ _ | VMap _ | VMono => Err
    end.

(** What a [Value] may hold, and the C++ type under which [ValueVisitor::visit] hands it to the conversion
    (ValueHelper.cpp:41-93): a stored string arrives as [std::string_view], everything else under its own type. *)
Definition visited (v : val) : val :=
  match v with VStr s => VView s | _ => v end.

(** [convert_safely<T, strictCheck>(const ValueView&)] (PmtTypeHelpers.hpp:359-364); the [Value] overload forwards
    to it (lines 367-370). *)
Definition convertValue (pf : fty -> list Z -> option flt) (strict : bool) (t : tgt) (v : val) : cres :=
  convertSafely pf strict t (visited v).

(** [inRange<T>] (PmtTypeHelpers.hpp:66-75) for the signed types it is used with. *)
Definition inRangeS (t : ity) (z : Z) : bool := (iMin t <=? z) && (z <=? iMax t).

(** Result of [parseToMinimalNumeric]. *)
Inductive pres := PInt (t : ity) (z : Z) | PFlt (f : fty) (x : flt) | PErr.

(** First type of a list that is in the variant and passes its test. *)
Fixpoint firstFit (has : ity -> bool) (ok : ity -> bool) (ts : list ity) : option ity :=
  match ts with
  | t :: r => if has t && ok t then Some t else firstFit has ok r
  | [] => None
  end.

(** '.', 'e' or 'E' occurs in the text (PmtTypeHelpers.hpp:379). *)
Definition mightBeFloat (s : list Z) : bool := existsb (fun c => (c =? 46) || (c =? 101) || (c =? 69)) s.

(** [parseToMinimalNumeric<Variant>] (PmtTypeHelpers.hpp:372-492); [has] and [hasF] say which types the variant
    contains.  The two inner calls of the floating-point branch pass a [std::variant<std::string>]. *)
Definition parseToMinimalNumeric (pf : fty -> list Z -> option flt) (has : ity -> bool) (hasF : fty -> bool)
    (input : list Z) : pres :=
  let s := trimAndCutComment input in
  match s with
  | [] => PErr
  | c :: _ =>
      if negb (mightBeFloat s) then
        if c =? 45 then
          match fromChars true (iMin I64) (iMax I64) s with
          | FcOk v [] =>
              match firstFit has (fun t => match t with I64 => true | _ => inRangeS t v end) [I8; I16; I32; I64] with
              | Some t => PInt t (castInt t v)
              | None => PErr
              end
          | _ => PErr
          end
        else
          match fromChars false (iMin U64) (iMax U64) s with
          | FcOk v [] =>
              match firstFit has (fun t => v <=? iMax t) [I8; U8; I16; U16; I32; U32; I64; U64] with
              | Some t => PInt t (castInt t v)
              | None => PErr
              end
          | _ => PErr
          end
      else
        let try f := convertSafely pf false (TFlt f) (VVar (VStr s)) in
        if hasF F32 then
          match try F32 with
          | Ok (VFlt f x) => PFlt f x
          | _ => if hasF F64 then match try F64 with Ok (VFlt f x) => PFlt f x | _ => PErr end else PErr
          end
        else if hasF F64 then match try F64 with Ok (VFlt f x) => PFlt f x | _ => PErr end
        else PErr
  end.

(** * convertTo: element types, policies, tensors *)

(** Element types of a typed tensor (ValueHelper.hpp:629-641). *)
Inductive ety := EBool | EInt (i : ity) | EFlt (f : fty) | ECplx (f : fty).

(** The conversion policies, in their order (ValueHelper.hpp:21-26). *)
Inductive policy := Safe | Widening | Narrowing | Unchecked.
Definition pnum (p : policy) : Z := match p with Safe => 0 | Widening => 1 | Narrowing => 2 | Unchecked => 3 end.

(** [std::same_as] on element types. *)
Definition ety_eqb (a b : ety) : bool :=
  match a, b with
  | EBool, EBool => true
  | EInt i, EInt j => ity_beq i j
  | EFlt f, EFlt g | ECplx f, ECplx g => fty_beq f g
  | _, _ => false
  end.

(** Width in bits of a floating-point type. *)
Definition fwidth (f : fty) : Z := match f with F32 => 32 | F64 => 64 end.

(** [is_static_castable_v] (ValueHelper.hpp:78-81): everything but a complex source with a non-complex target. *)
Definition castable (a b : ety) : bool :=
  match a, b with
  | ECplx _, ECplx _ => true
  | ECplx _, _ => false
  | _, _ => true
  end.

(** [is_widening_v] (ValueHelper.hpp:86-87). *)
Definition isWidening (a b : ety) : bool :=
  match a, b with
  | EInt i, EInt j => (width i <? width j) && Bool.eqb (isSigned i) (isSigned j)
  | EFlt F32, EFlt F64 | ECplx F32, ECplx F64 => true
  | EInt i, EFlt f => width i <=? fwidth f
  | _, _ => false
  end.

(** [is_narrowing_v] (ValueHelper.hpp:89-90). *)
Definition isNarrowing (a b : ety) : bool := negb (ety_eqb a b) && negb (isWidening a b) && castable a b.

(** [conversion_allowed_v] (ValueHelper.hpp:92-93). *)
Definition allowed (p : policy) (a b : ety) : bool :=
  ety_eqb a b || ((1 <=? pnum p) && isWidening a b) || ((2 <=? pnum p) && isNarrowing a b)
  || ((pnum p =? 3) && castable a b).

(** Element values; a boolean is 0 or 1. *)
Inductive elt := XBool (b : bool) | XInt (i : ity) (z : Z) | XFlt (f : fty) (x : flt) | XCplx (f : fty) (re im : flt).

(** Type of an element. *)
Definition etype (x : elt) : ety :=
  match x with XBool _ => EBool | XInt i _ => EInt i | XFlt f _ => EFlt f | XCplx f _ _ => ECplx f end.

(** The number an element denotes as an integer source of a cast. *)
Definition b2z (b : bool) : Z := if b then 1 else 0.

(** [static_cast<float>] of a floating-point value, and of the parts of a complex one (ValueHelper.hpp:163, 199). *)
Definition castReal (f : fty) (x : elt) : option flt :=
  match x with
  | XBool b => Some (castIntFlt f (b2z b))
  | XInt _ z => Some (castIntFlt f z)
  | XFlt _ y => Some (castFltFlt f y)
  | XCplx _ _ _ => None
  end.

(** [static_cast<DstT>(elem)] (ValueHelper.hpp:163, 199); [None] when undefined (floating point outside the integer
    range) or when the cast does not exist. *)
Definition castElt (t : ety) (x : elt) : option elt :=
  match t with
  | EBool =>
      match x with
      | XBool b => Some (XBool b)
      | XInt _ z => Some (XBool (negb (z =? 0)))
      | XFlt _ (FFin m _) => Some (XBool (negb (m =? 0)))
      | XFlt _ _ => Some (XBool true)
      | XCplx _ _ _ => None
      end
  | EInt i =>
      match x with
      | XBool b => Some (XInt i (b2z b))
      | XInt _ z => Some (XInt i (castInt i z))
      | XFlt _ (FFin m e) => match castFltInt (iMin i) (iMax i) m e with Some z => Some (XInt i z) | None => None end
      | _ => None
      end
  | EFlt f => match castReal f x with Some y => Some (XFlt f y) | None => None end
  | ECplx f =>
      match x with
      | XCplx _ re im => Some (XCplx f (castFltFlt f re) (castFltFlt f im))
      | _ => match castReal f x with Some y => Some (XCplx f y (FFin 0 0)) | None => None end
      end
  end.

(** A typed tensor: element type, extents, elements in storage order. *)
Record tensor := mkTensor { tElem : ety; tExt : list Z; tData : list elt }.

(** Rank policies (ValueHelper.hpp:28-32). *)
Inductive rpolicy := RStrict | RFlatten | RReshape.

(** Result of a conversion of a tensor; [CErr kind] keeps the error kind the caller may test. *)
Inductive ckind := KTypeMismatch | KElement (i : Z) | KRank | KSize | KNarrowing | KWidening | KNotTensor.
Inductive tres := TOk (l : list elt) | TErr (k : ckind) | TUB.

(** The cast of every element, in order. *)
Fixpoint castAll (t : ety) (l : list elt) : option (list elt) :=
  match l with
  | [] => Some []
  | x :: r => match castElt t x, castAll t r with Some y, Some s => Some (y :: s) | _, _ => None end
  end.

(** The error of a conversion that the policy does not allow (ValueHelper.hpp:141-147). *)
Definition notAllowed (a b : ety) : ckind :=
  if isWidening a b then KWidening else if castable a b then KNarrowing else KTypeMismatch.

(** [Strict] asks for rank one (ValueHelper.hpp:149-153, 184-188). *)
Definition rankOk (rp : rpolicy) (ext : list Z) : bool :=
  match rp with RStrict => Nat.eqb (length ext) 1 | _ => true end.

(** [tensorToVector] (ValueHelper.hpp:138-171). *)
Definition tensorToVector (t : ety) (p : policy) (rp : rpolicy) (src : tensor) : tres :=
  if negb (allowed p (tElem src) t) then TErr (notAllowed (tElem src) t)
  else if negb (rankOk rp (tExt src)) then TErr KRank
  else match castAll t (tData src) with Some l => TOk l | None => TUB end.

(** [tensorToArray] (ValueHelper.hpp:175-204). *)
Definition tensorToArray (t : ety) (n : Z) (p : policy) (rp : rpolicy) (src : tensor) : tres :=
  if negb (allowed p (tElem src) t) then TErr (notAllowed (tElem src) t)
  else if negb (rankOk rp (tExt src)) then TErr KRank
  else if negb (Z.of_nat (length (tData src)) =? n) then TErr KSize
  else match castAll t (tData src) with Some l => TOk l | None => TUB end.

(** The source types [tryConvertElement] looks for under [Widening] (ValueHelper.hpp:305-352). *)
Definition widenTable (t : ety) : list ety :=
  match t with
  | EFlt F64 => [EFlt F32; EInt I32; EInt I64]
  | EFlt F32 => [EInt I32; EInt I16]
  | EInt I64 => [EInt I32; EInt I16; EInt I8]
  | EInt I32 => [EInt I16; EInt I8]
  | EInt I16 => [EInt I8]
  | EInt U64 => [EInt U32; EInt U16; EInt U8]
  | EInt U32 => [EInt U16; EInt U8]
  | EInt U16 => [EInt U8]
  | ECplx F64 => [ECplx F32]
  | _ => []
  end.

(** The source types it looks for under [Narrowing] (ValueHelper.hpp:355-405). *)
Definition narrowTable (t : ety) : list ety :=
  match t with
  | EFlt F32 => [EFlt F64]
  | EInt I32 => [EInt I64; EFlt F64; EFlt F32]
  | EInt I16 => [EInt I32; EInt I64]
  | EInt I8 => [EInt I16; EInt I32]
  | EInt U32 => [EInt U64]
  | EInt U16 => [EInt U32]
  | EInt U8 => [EInt U16; EInt U32]
  | ECplx F32 => [ECplx F64]
  | _ => []
  end.

(** The source types it looks for under [Unchecked] (ValueHelper.hpp:407-452). *)
Definition uncheckedTable (t : ety) : list ety :=
  match t with
  | ECplx _ => [ECplx F32; ECplx F64]
  | _ => [EBool; EInt I8; EInt I16; EInt I32; EInt I64; EInt U8; EInt U16; EInt U32; EInt U64; EFlt F32; EFlt F64]
  end.

(** Membership of an element type in a table. *)
Definition inTable (a : ety) (l : list ety) : bool := existsb (ety_eqb a) l.

(** [tryConvertElement] (ValueHelper.hpp:290-455) for a target that is no string. *)
Definition tryConvertElement (t : ety) (p : policy) (x : elt) (idx : Z) : tres :=
  let a := etype x in
  if ety_eqb a t || ((1 <=? pnum p) && inTable a (widenTable t)) || ((2 <=? pnum p) && inTable a (narrowTable t))
     || ((pnum p =? 3) && inTable a (uncheckedTable t))
  then match castElt t x with Some y => TOk [y] | None => TUB end
  else TErr (KElement idx).

(** The loop of [tensorOfValueToVector] (ValueHelper.hpp:466-474). *)
Fixpoint convertAll (t : ety) (p : policy) (idx : Z) (l : list elt) : tres :=
  match l with
  | [] => TOk []
  | x :: r =>
      match tryConvertElement t p x idx with
      | TOk y => match convertAll t p (idx + 1) r with TOk s => TOk (y ++ s) | e => e end
      | e => e
      end
  end.

(** [tensorOfValueToVector] (ValueHelper.hpp:457-476); the source is a tensor of values. *)
Definition valuesToVector (t : ety) (p : policy) (rp : rpolicy) (ext : list Z) (l : list elt) : tres :=
  if negb (rankOk rp ext) then TErr KRank else convertAll t p 0 l.
