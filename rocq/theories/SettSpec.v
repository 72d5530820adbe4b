(** Specification of the settings properties, independent of how settings are stored. *)
From Coq Require Import List NArith Lia Bool.
From Verif Require Import SettModel.
Import ListNotations.
Local Open Scope N_scope.

(* ------------------------------------------------------------------ what was ever stored *)

(** Everything that was ever stored, oldest first: time from which it is valid, context name, values. *)
Definition log : Type := list (N * N * pmap).

(** The values of context [n] valid at time [t]: those with the greatest time not after [t] (stored last, among equals). *)
Fixpoint currentFrom (acc : option (N * pmap)) (l : log) (n t : N) : option (N * pmap) :=
  match l with
  | [] => acc
  | (c, n', m) :: r =>
      currentFrom (if (n' =? n) && (c <=? t) && (match acc with None => true | Some (c0, _) => c0 <=? c end)
                   then Some (c, m) else acc) r n t
  end.
Definition current (l : log) (n t : N) : option pmap := option_map snd (currentFrom None l n t).

(** Given values laid over a map: the last value given for a name counts; names that are not members are ignored. *)
Definition overlay (B : bdesc) (base ps : pmap) : pmap :=
  fold_left (fun m kv => if has (fst kv) (writ B)
                         then match conv B (fst kv) (snd kv) with Some v => pput m (fst kv) v | None => m end else m) ps base.

(** Every given value for a member can be converted. *)
Definition convertible (B : bdesc) (ps : pmap) : Prop :=
  forall k v, In (k, v) ps -> has k (writ B) = true -> conv B k v <> None.

(** A block description makes sense: a converted value has the member's type, and a value that already has the type is
    left alone by the conversion. *)
Definition sane (B : bdesc) : Prop :=
  (forall k v v', conv B k v = Some v' -> holds B k v' = true)
  /\ (forall k v, holds B k v = true -> conv B k v = Some v).

(* ------------------------------------------------------------------ histories *)

(** What a program can do with the settings of a block; clock readings are arguments. *)
Inductive op :=
| OSet (now1 now2 : N) (ps : pmap) (c : ctx)
| OActivate (now : N) (c : ctx)
| OTag (now1 now2 : N) (t : tagMap)
| OApply
| OStage (ps : pmap)
| OReset (now1 now2 now3 : N)
| OStoreDefaults.

(** One operation (a throwing autoUpdate is not followed further). *)
Definition stepS (B : bdesc) (pred : N -> N -> N -> option bool) (fuel : nat) (s : st) (o : op) : st :=
  match o with
  | OSet a b ps c => fst (set B pred fuel s a b ps c)
  | OActivate a c => fst (activate B pred fuel s a c)
  | OTag a b t => match autoUpdate B pred fuel s a b t with Some s' => s' | None => s end
  | OApply => applyChanged B s
  | OStage ps => fst (setStaged B s ps)
  | OReset a b d => resetDefaults B pred fuel s a b d
  | OStoreDefaults => storeDefaults s
  end.
Definition runS B pred fuel (s : st) (os : list op) : st := fold_left (stepS B pred fuel) os s.

(** Readings of one operation in order, and the clock never goes back. *)
Definition readings (o : op) : list N :=
  match o with
  | OSet a b _ _ => [a; b]
  | OActivate a _ => [a]
  | OTag a b _ => [a; b]
  | OReset a b d => [a; b; d]
  | _ => []
  end.
Fixpoint ascending (now : N) (l : list N) : Prop :=
  match l with
  | [] => True
  | x :: r => now <= x /\ ascending x r
  end.
Definition lastReading (now : N) (l : list N) : N := last l now.

(** What an operation adds to the log, given the defaults at that moment. *)
Definition logStep (B : bdesc) (d : pmap) (l : log) (o : op) : log :=
  match o with
  | OSet a _ ps (t, n) =>
      let t' := if t =? 0 then a else t in
      if existsb (fun kv => has (fst kv) (writ B) && match conv B (fst kv) (snd kv) with None => true | _ => false end) ps
      then l
      else l ++ [(t', n, overlay B (match current l n t' with Some m => m | None => d end) ps)]
  | OReset a _ _ => l ++ [(a, 0, d)]
  | _ => l
  end.
Fixpoint logOf (B : bdesc) pred fuel (s : st) (l : log) (os : list op) : log :=
  match os with
  | [] => l
  | o :: r => logOf B pred fuel (stepS B pred fuel s o) (logStep B (dflt s) l o) r
  end.

(** No context gets two sets of values for the same time. *)
Definition distinctTimes (l : log) : Prop :=
  NoDup (map (fun x => (fst (fst x), snd (fst x))) l).

(* ------------------------------------------------------------------ explicit settings and tags *)

(** What a user does to the default context of a running block: set values and activate them, let tags arrive, stage
    values for single names, reset, apply. *)
Inductive uop :=
| USet (now1 now2 now3 : N) (ps : pmap)
| UTag (now1 now2 : N) (vals : pmap) (trigger : option N)
| UStage (ps : pmap)
| UReset (now1 now2 now3 : N)
| UApply.
Definition uops (u : uop) : list op :=
  match u with
  | USet a b d ps => [OSet a b ps (0, 0); OActivate d (0, 0)]
  | UTag a b vals tr => [OTag a b (mkT vals None tr)]
  | UStage ps => [OStage ps]
  | UReset a b d => [OReset a b d]
  | UApply => [OApply]
  end.
Definition uprog (us : list uop) : list op := flat_map uops us.

(** The value last given explicitly to [k]: by set, or by a reset to the defaults. *)
Definition lastIn (k : N) (ps : pmap) : option N := fold_left (fun a kv => if fst kv =? k then Some (snd kv) else a) ps None.
Definition given (B : bdesc) (d : pmap) (k : N) (a : option N) (u : uop) : option N :=
  match u with
  | USet _ _ _ ps => match lastIn k ps with Some v => conv B k v | None => a end
  | UReset _ _ _ => match a with Some _ => pget d k | None => None end
  | _ => a
  end.
Definition lastGiven (B : bdesc) (d : pmap) (k : N) (a : option N) (us : list uop) : option N :=
  fold_left (given B d k) us a.

(** The name is not staged directly; all given values can be converted; those given for [k] are also accepted by it. *)
Definition fair (B : bdesc) (k : N) (u : uop) : Prop :=
  match u with
  | USet _ _ _ ps => convertible B ps /\ (forall v v', lastIn k ps = Some v -> conv B k v = Some v' -> valid B k v' = true)
  | UStage ps => convertible B ps /\ lastIn k ps = None
  | _ => True
  end.

(** Every name once. *)
Definition noDup (m : pmap) : Prop := NoDup (map fst m).

(** The active parameters (what get answers from) repeat the members. *)
Definition mirror (s : st) : Prop := noDup (fields s) /\ forall k v, pget (active s) k = Some v -> pget (fields s) k = Some v.

(** Every value of a map has the type of its member. *)
Definition typed (B : bdesc) (m : pmap) : Prop := forall k v, In (k, v) m -> holds B k v = true.

(** The clock moves on between two readings. *)
Fixpoint strictClock (now : N) (l : list N) : Prop :=
  match l with
  | [] => True
  | x :: r => now < x /\ strictClock x r
  end.
Definition ureadings (us : list uop) : list N := flat_map (fun u => flat_map readings (uops u)) us.

(* ------------------------------------------------------------------ two threads *)

(** The value last staged for [k]. *)
Definition stagedStep (B : bdesc) (k : N) (a : option N) (x : astep) : option N :=
  match x with AStage ps => match lastIn k ps with Some v => conv B k v | None => a end | _ => a end.
Definition lastStaged (B : bdesc) (k : N) (xs : list astep) : option N := fold_left (stagedStep B k) xs None.

(** Values are only staged while the other thread is not between taking the staged values and clearing them. *)
Fixpoint outside (B : bdesc) (a : astate) (xs : list astep) : Prop :=
  match xs with
  | [] => True
  | x :: r => (match x with AStage _ => snd a <= 1 | _ => True end)
              /\ match arun1 B a x with Some a' => outside B a' r | None => True end
  end.

(** The staged values can be converted, those for [k] are accepted by it. *)
Definition fairStage (B : bdesc) (k : N) (x : astep) : Prop :=
  match x with
  | AStage ps => convertible B ps /\ (forall v v', lastIn k ps = Some v -> conv B k v = Some v' -> valid B k v' = true)
  | _ => True
  end.
