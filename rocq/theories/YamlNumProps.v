(* Integers in the four bases of the YAML reader. *)
From Coq Require Import NArith ZArith Lia Bool String Ascii.
From Verif Require Import YamlModel.
From Coq Require Import List.
Import ListNotations.

Local Open Scope N_scope.

(* The digits up to 35, small and capital. *)
Definition small : list ascii := list_ascii_of_string "0123456789abcdefghijklmnopqrstuvwxyz".
Definition capital : list ascii := list_ascii_of_string "0123456789ABCDEFGHIJKLMNOPQRSTUVWXYZ".
Definition isDigit (c : ascii) (d : N) : Prop :=
  nth_error small (N.to_nat d) = Some c \/ nth_error capital (N.to_nat d) = Some c.
(* Positional value: the last digit counts once. *)
Fixpoint weight (base : N) (ds : list N) : N :=
  match ds with [] => 0 | d :: r => d * base ^ N.of_nat (List.length r) + weight base r end.
(* A text that denotes a number in a base. *)
Definition denotes (base : N) (t : list ascii) (v : N) : Prop :=
  t <> [] /\ exists ds, Forall2 isDigit t ds /\ Forall (fun d => d < base) ds /\ v = weight base ds.
(* The prefixes. *)
Inductive prefix : list ascii -> N -> Prop :=
| pre_hex : prefix (list_ascii_of_string "0x") 16
| pre_oct : prefix (list_ascii_of_string "0o") 8
| pre_bin : prefix (list_ascii_of_string "0b") 2
| pre_dec : prefix [] 10.

Lemma digitVal_iff c d : digitVal c = Some d <-> isDigit c d.
Proof.
  split.
  - intros H. unfold isDigit. destruct c as [[] [] [] [] [] [] [] []]; vm_compute in H; try discriminate; injection H as <-; vm_compute; auto.
  - intros H. unfold isDigit in H. assert (L : (N.to_nat d < 36)%nat).
    { destruct H as [H|H]; assert (X : nth_error _ (N.to_nat d) <> None) by (rewrite H; discriminate); apply nth_error_Some in X; exact X. }
    rewrite <- (N2Nat.id d). generalize dependent (N.to_nat d). intros n H L.
    do 36 (destruct n as [|n]; [destruct H as [H|H]; vm_compute in H; injection H as <-; vm_compute; reflexivity|]). lia.
Qed.

Lemma readDigits_iff base t acc v : readDigits base acc t = Some v <->
  exists ds, Forall2 isDigit t ds /\ Forall (fun d => d < base) ds /\ v = acc * base ^ N.of_nat (List.length ds) + weight base ds.
Proof.
  revert acc. induction t as [|c t IH]; intros acc; cbn [readDigits].
  - split.
    + intros H. injection H as <-. exists []. split; [constructor|]. split; [constructor|]. cbn. lia.
    + intros (ds & H1 & _ & H3). inversion H1; subst. cbn. f_equal. lia.
  - unfold digitIn. split.
    + destruct (digitVal c) as [d|] eqn:Ed; [|discriminate]. destruct (d <? base) eqn:El; [|discriminate]. intros H. apply IH in H. destruct H as (ds & H1 & H2 & H3).
      exists (d :: ds). apply N.ltb_lt in El. split; [constructor; [apply digitVal_iff; exact Ed|exact H1]|]. split; [constructor; assumption|].
      rewrite H3. cbn [List.length weight]. rewrite Nat2N.inj_succ, N.pow_succ_r'. lia.
    + intros (ds & H1 & H2 & H3). destruct ds as [|d ds]; [inversion H1|]. apply Forall_cons_iff in H2. destruct H2 as [D1 D2].
      assert (Hd : isDigit c d /\ Forall2 isDigit t ds) by (inversion H1; auto). destruct Hd as [Hd Ht]. apply digitVal_iff in Hd. rewrite Hd. apply N.ltb_lt in D1. rewrite D1.
      apply IH. exists ds. split; [exact Ht|]. split; [exact D2|]. rewrite H3. cbn [List.length weight]. rewrite Nat2N.inj_succ, N.pow_succ_r'. lia.
Qed.

Lemma readNat_iff base t v : readNat base t = Some v <-> denotes base t v.
Proof.
  unfold readNat, denotes. destruct t as [|c t].
  - split; [discriminate|]. intros [H _]. congruence.
  - rewrite readDigits_iff. split.
    + intros (ds & H1 & H2 & H3). split; [discriminate|]. exists ds. split; [exact H1|]. split; [exact H2|]. rewrite H3. lia.
    + intros [_ (ds & H1 & H2 & H3)]. exists ds. split; [exact H1|]. split; [exact H2|]. rewrite H3. lia.
Qed.

Lemma denotes_dash base r v : ~ denotes base (dash :: r) v.
Proof.
  intros (_ & ds & H & _). inversion H as [|x d l l' Hd _]; subst. apply digitVal_iff in Hd. vm_compute in Hd. discriminate.
Qed.

Lemma fromChars_iff k base t z : fromChars k base t = Some z <->
  inRange k z = true /\ ((exists v, denotes base t v /\ z = Z.of_N v) \/
                         (signed k = true /\ exists r v, t = dash :: r /\ denotes base r v /\ z = (- Z.of_N v)%Z)).
Proof.
  unfold fromChars. destruct t as [|c r].
  - split; [discriminate|]. intros [_ [(v & [H _] & _)|(_ & r & v & H & _)]]; [congruence|discriminate].
  - destruct (Ascii.eqb c dash && signed k) eqn:E.
    + apply andb_true_iff in E. destruct E as [E1 E2]. apply Ascii.eqb_eq in E1. subst c. split.
      * destruct (readNat base r) as [v|] eqn:Er; cbn [option_map]; [|discriminate]. destruct (inRange k (- Z.of_N v)) eqn:Ei; [|discriminate]. intros H. injection H as <-.
        split; [exact Ei|]. right. split; [exact E2|]. exists r, v. split; [reflexivity|]. split; [apply readNat_iff; exact Er|reflexivity].
      * intros [Ei [(v & H & _)|(_ & r' & v & H & Hv & ->)]]; [exfalso; eapply denotes_dash; exact H|]. injection H as <-. apply readNat_iff in Hv. rewrite Hv. cbn [option_map]. rewrite Ei. reflexivity.
    + split.
      * destruct (readNat base (c :: r)) as [v|] eqn:Er; cbn [option_map]; [|discriminate]. destruct (inRange k (Z.of_N v)) eqn:Ei; [|discriminate]. intros H. injection H as <-.
        split; [exact Ei|]. left. exists v. split; [apply readNat_iff; exact Er|reflexivity].
      * intros [Ei [(v & Hv & ->)|(Hs & r' & v & H & _)]].
        -- apply readNat_iff in Hv. rewrite Hv. cbn [option_map]. rewrite Ei. reflexivity.
        -- injection H as -> ->. rewrite Hs in E. cbn in E. discriminate.
Qed.

Lemma starts_app p t : starts p t = true <-> exists r, t = p ++ r.
Proof.
  revert t. induction p as [|a p IH]; intros [|b t]; cbn [starts app].
  - split; [exists []; reflexivity|reflexivity].
  - split; [exists (b :: t); reflexivity|reflexivity].
  - split; [discriminate|]. intros [r H]. discriminate.
  - rewrite andb_true_iff, IH, Ascii.eqb_eq. split.
    + intros [-> [r ->]]. exists r. reflexivity.
    + intros [r H]. injection H as -> ->. split; [reflexivity|]. exists r. reflexivity.
Qed.

(* a decimal text is not taken for another base *)
Lemma decimal_not k (x : ascii) t z : digitIn 10 x = None -> fromChars k 10 ("0"%char :: x :: t) = Some z -> False.
Proof.
  intros Hx H. apply fromChars_iff in H. destruct H as [_ [(v & Hv & _)|(_ & r & v & H & _)]]; [|discriminate].
  apply readNat_iff in Hv. cbn [readNat readDigits] in Hv. change (digitIn 10 "0"%char) with (Some 0) in Hv. cbv iota in Hv. rewrite Hx in Hv. discriminate.
Qed.

(* ---------- C179: integers are read in the base they are written in ---------- *)

(* An integer is read exactly if the text without surrounding space is one of
   the prefixes, for a signed type possibly a minus sign, and at least one
   digit of the base, and the value fits; the value is the positional one. *)
Theorem C179_integers : forall k t z, parseInt k t = Some z <->
  exists p base body v, prefix p base /\ denotes base body v /\ inRange k z = true /\
    ((trim t = p ++ body /\ z = Z.of_N v) \/ (signed k = true /\ trim t = p ++ dash :: body /\ z = (- Z.of_N v)%Z)).
Proof.
  intros k t0 z. unfold parseInt. generalize (trim t0) as t. intros t.
  assert (G : forall p base r, prefix p base -> t = p ++ r ->
     (fromChars k base r = Some z -> exists p base body v, prefix p base /\ denotes base body v /\ inRange k z = true /\
        ((t = p ++ body /\ z = Z.of_N v) \/ (signed k = true /\ t = p ++ dash :: body /\ z = (- Z.of_N v)%Z)))).
  { intros p base r Hp Ht H. apply fromChars_iff in H. destruct H as [Hi [(v & Hv & Hz)|(Hs & r' & v & -> & Hv & Hz)]].
    - exists p, base, r, v. split; [exact Hp|]. split; [exact Hv|]. split; [exact Hi|]. left. split; assumption.
    - exists p, base, r', v. split; [exact Hp|]. split; [exact Hv|]. split; [exact Hi|]. right. split; [exact Hs|]. split; assumption. }
  split.
  - destruct (starts (lit "0x") t) eqn:E1; [apply starts_app in E1; destruct E1 as [r E]; intros H; apply (G _ 16 r pre_hex E); rewrite E in H; exact H|].
    destruct (starts (lit "0o") t) eqn:E2; [apply starts_app in E2; destruct E2 as [r E]; intros H; apply (G _ 8 r pre_oct E); rewrite E in H; exact H|].
    destruct (starts (lit "0b") t) eqn:E3; [apply starts_app in E3; destruct E3 as [r E]; intros H; apply (G _ 2 r pre_bin E); rewrite E in H; exact H|].
    apply (G [] 10); [constructor|reflexivity].
  - intros (p & base & body & v & Hp & Hv & Hi & Hz).
    assert (F : exists r, t = p ++ r /\ fromChars k base r = Some z).
    { destruct Hz as [[Ht Hz]|(Hs & Ht & Hz)].
      - exists body. split; [exact Ht|]. apply fromChars_iff. split; [exact Hi|]. left. exists v. split; assumption.
      - exists (dash :: body). split; [exact Ht|]. apply fromChars_iff. split; [exact Hi|]. right. split; [exact Hs|]. exists body, v. repeat split; try assumption. apply Hv. apply Hv. }
    clear Hz. destruct F as (r & -> & F). destruct Hp; cbn [list_ascii_of_string app]; try exact F.
    destruct (starts (lit "0x") r) eqn:E1; [apply starts_app in E1; destruct E1 as [q ->]; exfalso; apply (decimal_not k "x"%char q z); [reflexivity|exact F]|].
    destruct (starts (lit "0o") r) eqn:E2; [apply starts_app in E2; destruct E2 as [q ->]; exfalso; apply (decimal_not k "o"%char q z); [reflexivity|exact F]|].
    destruct (starts (lit "0b") r) eqn:E3; [apply starts_app in E3; destruct E3 as [q ->]; exfalso; apply (decimal_not k "b"%char q z); [reflexivity|exact F]|].
    exact F.
Qed.
Print Assumptions C179_integers.

Example C179_ex :
  parseInt I32 (lit " 0x1fF ") = Some 511%Z /\ parseInt I32 (lit "0o17") = Some 15%Z /\
  parseInt I32 (lit "0b101") = Some 5%Z /\ parseInt I32 (lit "-42") = Some (-42)%Z /\
  parseInt I32 (lit "0b102") = None /\ denotes 16 (lit "1fF") 511.
Proof.
  repeat (split; [vm_compute; reflexivity|]). split; [discriminate|]. exists [1; 15; 15]. split; [|split; [|vm_compute; reflexivity]].
  - constructor; [left; reflexivity|]. constructor; [left; reflexivity|]. constructor; [right; reflexivity|constructor].
  - repeat constructor.
Qed.
