(* The basic trigger filter is a matcher in the sense of WinSpec. *)
From Coq Require Import List Ascii Bool.
From Verif Require Import TriggerModel TriggerSpec TriggerProofs.
From Verif Require WinModel WinSpec.
Import ListNotations.

Lemma filter_key m t s : sfilter s = Some m -> singleKey (fst (filter m t s)) = singleKey s.
Proof.
  intros H. unfold filter. rewrite verify_known by exact H.
  repeat match goal with |- context [if ?b then _ else _] => destruct b end; reflexivity.
Qed.

Definition startsB (p : part) (t : tag) : bool := negb (isNil t) && satb p t.
Definition singleB (p : part) (t : tag) : bool := negb (isNil t) && singleMatch p t.

Definition pairIdle (m : str) (p1 p2 : part) (f : state) : Prop :=
  f = fresh \/ (config m p1 p2 f /\ singleKey f = Some false /\ inPhase Idle f).
Definition pairOpen (m : str) (p1 p2 : part) (f : state) : Prop :=
  config m p1 p2 f /\ singleKey f = Some false /\ inPhase Open f.
Definition singleIdle (m : str) (p : part) (f : state) : Prop :=
  f = fresh \/ (singleConfig m p f /\ singleKey f = Some true).

Definition noMarks (p : part) : Prop := pnameEnds p = false /\ pctxEnds p = false.

Lemma pair_matcher m s1 s2 p1 p2 :
  content m (s1 ++ RANGE_OP :: s2) -> rendered p1 s1 -> rendered p2 s2 ->
  clean (pname p1) -> clean (pctx p1) -> clean (pname p2) -> clean (pctx p2) ->
  pname p1 <> [] \/ pctx p1 <> [] -> pname p2 <> [] \/ pctx p2 <> [] -> ~ (pname p1 = pname p2 /\ pctx p1 = pctx p2) ->
  noMarks p1 -> noMarks p2 ->
  WinSpec.matcher (WinModel.detect m) fresh false (startsB p1) (startsB p2) (pairIdle m p1 p2) (pairOpen m p1 p2).
Proof.
  intros Hc R1 R2 A1 A2 B1 B2 N1 N2 Hd [M1 M2] [M3 M4].
  assert (V : forall t, filter m t fresh = filter m t (pairState m p1 p2)).
  { intros t. rewrite (filter_first m t fresh (pairState m p1 p2) false); [reflexivity|]. apply (verify_pair m s1 s2); try assumption. discriminate. }
  assert (C0 : config m p1 p2 (pairState m p1 p2) /\ singleKey (pairState m p1 p2) = Some false /\ inPhase Idle (pairState m p1 p2)) by (repeat split).
  assert (G : forall t f ph, config m p1 p2 f -> singleKey f = Some false -> inPhase ph f ->
     let r := phaseStep (satb p1) (satb p2) false false ph t in
     config m p1 p2 (fst (filter m t f)) /\ singleKey (fst (filter m t f)) = Some false /\ inPhase (fst r) (fst (filter m t f)) /\ snd (filter m t f) = Some (snd r)).
  { intros t f ph C K P. destruct (filter_pair m p1 p2 t f ph C P) as (Q1 & Q2 & Q3). rewrite M1, M2, M3, M4 in Q2, Q3. cbn [orb] in Q2, Q3.
    split; [exact Q1|]. split; [|split; assumption]. rewrite filter_key; [exact K|apply C]. }
  assert (GI : forall t f, pairIdle m p1 p2 f -> let r := phaseStep (satb p1) (satb p2) false false Idle t in
     config m p1 p2 (fst (filter m t f)) /\ singleKey (fst (filter m t f)) = Some false /\ inPhase (fst r) (fst (filter m t f)) /\ snd (filter m t f) = Some (snd r)).
  { intros t f [-> |(C & K & P)]; [rewrite V|]; apply G; (assumption || apply C0). }
  constructor.
  - left. reflexivity.
  - intros f t Hf Ht. specialize (GI t f Hf). unfold startsB in Ht. apply andb_true_iff in Ht. destruct Ht as [T1 T2]. apply negb_true_iff in T1.
    unfold WinModel.detect. destruct (filter m t f) as [f' r]. cbn [fst snd] in GI. unfold phaseStep in GI. rewrite T1, T2 in GI. cbn [fst snd] in GI. destruct GI as (G1 & G2 & G3 & ->).
    cbn [fst snd]. rewrite G2. split; [reflexivity|]. split; [exact G1|]. split; assumption.
  - intros f t Hf Ht. specialize (GI t f Hf). unfold startsB in Ht.
    unfold WinModel.detect. destruct (filter m t f) as [f' r]. cbn [fst snd] in GI. unfold phaseStep in GI.
    destruct (isNil t); [|cbn [negb andb] in Ht; rewrite Ht in GI]; cbn [fst snd] in GI; destruct GI as (G1 & G2 & G3 & ->); (split; [reflexivity|right; split; [exact G1|split; assumption]]).
  - intros f t (C & K & P) Ht. pose proof (G t f Open C K P) as GO. unfold startsB in Ht. apply andb_true_iff in Ht. destruct Ht as [T1 T2]. apply negb_true_iff in T1.
    unfold WinModel.detect. destruct (filter m t f) as [f' r]. cbn [fst snd] in GO. unfold phaseStep in GO. rewrite T1, T2 in GO. cbn [fst snd] in GO. destruct GO as (G1 & G2 & G3 & ->).
    cbn [fst snd]. rewrite G2. split; [reflexivity|]. right. split; [exact G1|]. split; assumption.
  - intros f t (C & K & P) Ht. pose proof (G t f Open C K P) as GO. unfold startsB in Ht.
    unfold WinModel.detect. destruct (filter m t f) as [f' r]. cbn [fst snd] in GO. unfold phaseStep in GO.
    destruct (isNil t); [|cbn [negb andb] in Ht; rewrite Ht in GO]; cbn [fst snd] in GO; destruct GO as (G1 & G2 & G3 & ->); (split; [reflexivity|split; [exact G1|split; assumption]]).
  - intros f Hf. specialize (GI [] f Hf). unfold WinModel.detect. destruct (filter m [] f) as [f' r]. cbn [fst snd phaseStep isNil] in GI. destruct GI as (G1 & G2 & G3 & ->).
    split; [reflexivity|right; split; [exact G1|split; assumption]].
  - intros f (C & K & P). pose proof (G [] f Open C K P) as GO. unfold WinModel.detect. destruct (filter m [] f) as [f' r]. cbn [fst snd phaseStep isNil] in GO. destruct GO as (G1 & G2 & G3 & ->).
    split; [reflexivity|split; [exact G1|split; assumption]].
Qed.

Lemma single_matcher m s1 p :
  content m s1 -> rendered p s1 -> clean (pname p) -> clean (pctx p) -> pname p <> [] \/ pctx p <> [] ->
  WinSpec.matcher (WinModel.detect m) fresh true (singleB p) (fun _ => false) (singleIdle m p) (fun _ => False).
Proof.
  intros Hc R A1 A2 N.
  assert (V : forall t, filter m t fresh = filter m t (singleState m p)).
  { intros t. rewrite (filter_first m t fresh (singleState m p) false); [reflexivity|]. apply (verify_single m s1); try assumption. discriminate. }
  assert (C0 : singleConfig m p (singleState m p) /\ singleKey (singleState m p) = Some true) by (repeat split).
  assert (GI : forall t f, singleIdle m p f -> singleConfig m p (fst (filter m t f)) /\ singleKey (fst (filter m t f)) = Some true /\ snd (filter m t f) = Some (if singleB p t then Matching else Ignore)).
  { intros t f Hf. assert (G : forall f, singleConfig m p f -> singleKey f = Some true -> singleConfig m p (fst (filter m t f)) /\ singleKey (fst (filter m t f)) = Some true /\ snd (filter m t f) = Some (if singleB p t then Matching else Ignore)).
    { intros g C K. destruct (filter_single m p t g C) as [Q1 Q2]. split; [exact Q1|]. split; [rewrite filter_key; [exact K|apply C]|exact Q2]. }
    destruct Hf as [-> |[C K]]; [rewrite V|]; apply G; (assumption || apply C0). }
  constructor; try contradiction.
  - left. reflexivity.
  - intros f t Hf Ht. specialize (GI t f Hf). rewrite Ht in GI. unfold WinModel.detect. destruct (filter m t f) as [f' r]. cbn [fst snd] in GI. destruct GI as (G1 & G2 & ->). cbn [fst snd]. rewrite G2. split; [reflexivity|right; split; assumption].
  - intros f t Hf Ht. specialize (GI t f Hf). rewrite Ht in GI. unfold WinModel.detect. destruct (filter m t f) as [f' r]. cbn [fst snd] in GI. destruct GI as (G1 & G2 & ->). split; [reflexivity|right; split; assumption].
  - intros f Hf. specialize (GI [] f Hf). unfold WinModel.detect. destruct (filter m [] f) as [f' r]. cbn [fst snd singleB isNil negb andb] in GI. destruct GI as (G1 & G2 & ->). split; [reflexivity|right; split; assumption].
Qed.
