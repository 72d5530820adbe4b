(* Proofs about the synchronising block. *)

From Coq Require Import Arith NArith List Bool Sorted Lia.
From Coq Require Import ZifyBool ZifyNat ZifyN.
From Verif Require Import SyncModel SyncSpec.
Import ListNotations.

Local Open Scope nat_scope.

(* ---------- minima and loops ---------- *)

Lemma foldmin_spec l : forall x,
  fold_left Nat.min l x <= x /\ (forall y, In y l -> fold_left Nat.min l x <= y)
  /\ (fold_left Nat.min l x = x \/ In (fold_left Nat.min l x) l).
Proof.
  induction l as [|y l IH]; intros x; cbn [fold_left].
  - split; [lia|]. split; [contradiction|auto].
  - destruct (IH (Nat.min x y)) as (H1 & H2 & H3). split; [lia|]. split.
    + intros z [ <- | Hz]; [lia|auto].
    + destruct H3 as [H3|H3]; [|right; right; exact H3].
      rewrite H3. destruct (Nat.min_dec x y) as [E|E]; rewrite E; [left; reflexivity|right; left; reflexivity].
Qed.

Lemma minl_le l x : In x l -> minl l <= x.
Proof.
  destruct l as [|y l]; [contradiction|]. unfold minl. destruct (foldmin_spec l y) as (H1 & H2 & _).
  intros [ <- | H]; auto.
Qed.

Lemma minl_in l : l <> [] -> In (minl l) l.
Proof.
  destruct l as [|y l]; [congruence|]. intros _. unfold minl. destruct (foldmin_spec l y) as (_ & _ & H).
  destruct H as [ -> | H]; [left; reflexivity|right; exact H].
Qed.

Lemma map3_nth {X Y Z R : Type} (f : X -> Y -> Z -> R) : forall l m n i,
  nth_error (map3 f l m n) i =
  match nth_error l i, nth_error m i, nth_error n i with
  | Some x, Some y, Some z => Some (f x y z)
  | _, _, _ => None
  end.
Proof.
  induction l as [|x l IH]; intros [|y m] [|z n] [|i]; cbn; try reflexivity.
  - destruct (nth_error l i); reflexivity.
  - destruct (nth_error l i); reflexivity.
  - destruct (nth_error l i); [|reflexivity]. destruct (nth_error m i); reflexivity.
  - apply IH.
Qed.

Lemma map2_nth {X Y R : Type} (f : X -> Y -> R) : forall l m i,
  nth_error (map2 f l m) i =
  match nth_error l i, nth_error m i with
  | Some x, Some y => Some (f x y)
  | _, _ => None
  end.
Proof.
  induction l as [|x l IH]; intros [|y m] [|i]; cbn; try reflexivity.
  - destruct (nth_error l i); reflexivity.
  - apply IH.
Qed.

Lemma map2_length {X Y R : Type} (f : X -> Y -> R) : forall l m, length m = length l ->
  length (map2 f l m) = length l.
Proof. induction l as [|x l IH]; intros [|y m] H; cbn in *; try lia. f_equal. apply IH. lia. Qed.

Lemma map3_length {X Y Z R : Type} (f : X -> Y -> Z -> R) : forall l m n,
  length m = length l -> length n = length l -> length (map3 f l m n) = length l.
Proof.
  induction l as [|x l IH]; intros [|y m] [|z n] H H'; cbn in *; try lia. f_equal. apply IH; lia.
Qed.

(* ---------- times ---------- *)

Lemma setIns_in x l y : In y (setIns x l) <-> y = x \/ In y l.
Proof.
  induction l as [|z l IH]; cbn [setIns In].
  - split; intros [H|H]; auto.
  - destruct (x <? z)%N; [cbn [In]; split; [intros [H|H]; auto|intros [H|H]; auto]|].
    destruct (N.eqb_spec x z); cbn [In].
    + subst. split; [intros [H|H]; auto|intros [H|[H|H]]; auto].
    + rewrite IH. split; [intros [H|[H|H]]; auto|intros [H|[H|H]]; auto].
Qed.

Lemma setIns_sorted x l : StronglySorted N.lt l -> StronglySorted N.lt (setIns x l).
Proof.
  induction 1 as [|z l H IH Hz]; cbn [setIns]; [repeat constructor|].
  destruct (N.ltb_spec x z).
  - constructor; [constructor; assumption|]. constructor; [assumption|].
    eapply Forall_impl; [|exact Hz]. cbn; intros; lia.
  - destruct (N.eqb_spec x z); [constructor; assumption|]. constructor; [exact IH|].
    apply Forall_forall. intros y Hy. apply setIns_in in Hy. rewrite Forall_forall in Hz.
    destruct Hy as [ -> | Hy]; [lia|auto].
Qed.

Lemma foldIns_spec xs : forall l, StronglySorted N.lt l ->
  StronglySorted N.lt (fold_left (fun l x => setIns x l) xs l)
  /\ forall y, In y (fold_left (fun l x => setIns x l) xs l) <-> In y xs \/ In y l.
Proof.
  induction xs as [|x xs IH]; intros l H; cbn [fold_left].
  - split; [exact H|]. intros y; cbn. tauto.
  - destruct (IH (setIns x l) (setIns_sorted x l H)) as [H1 H2]. split; [exact H1|].
    intros y. rewrite H2, setIns_in. cbn. split; [intros [Q|[Q|Q]]; auto|intros [[Q|Q]|Q]; auto].
Qed.

Section Sync.

Context {A : Type}.
Implicit Types sp : sspan A.
Implicit Types c : scfg.

Lemma allTimes_in c (ins : list (sspan A)) T :
  In T (allTimes c ins) <-> exists sp, In sp ins /\ In T (syncTimes c sp).
Proof.
  unfold allTimes. destruct (foldIns_spec (flat_map (syncTimes c) ins) [] (SSorted_nil _)) as [_ H].
  rewrite H, in_flat_map. cbn. split; [intros [Q|[]]; exact Q|auto].
Qed.

Lemma allTimes_sorted c (ins : list (sspan A)) : StronglySorted N.lt (allTimes c ins).
Proof. unfold allTimes. apply foldIns_spec. constructor. Qed.

Lemma isSync_iff c t : isSync c t = true <->
  exists n time, tName t = Some n /\ tTime t = Some time /\ (filt c = None \/ filt c = Some n).
Proof.
  unfold isSync. destruct (tName t) as [n|]; [|split; [discriminate|intros (? & ? & ? & _); discriminate]].
  rewrite andb_true_iff. split.
  - intros [H1 H2]. destruct (tTime t) as [u|]; [|discriminate]. exists n, u. split; [reflexivity|]. split; [reflexivity|].
    destruct (filt c) as [f|]; [|auto]. apply N.eqb_eq in H1. subst. auto.
  - intros (n' & u & E1 & E2 & H). injection E1 as <-. rewrite E2. split; [|reflexivity].
    destruct H as [ -> | -> ]; [reflexivity|apply N.eqb_refl].
Qed.

Lemma syncTimes_in c sp T : In T (syncTimes c sp) <-> exists t, syncTag c sp t T.
Proof.
  unfold syncTimes, syncTag. rewrite in_map_iff. split.
  - intros (t & E & H). apply filter_In in H. destruct H as [H1 H2]. apply andb_true_iff in H2.
    destruct H2 as [H2 H3]. apply isSync_iff in H2. destruct H2 as (n & u & E1 & E2 & H2).
    apply Nat.ltb_lt in H3. exists t. unfold getTime in E. rewrite E2 in E. subst u.
    split; [exact H1|]. split; [exact H3|]. split; [exact E2|]. exists n. auto.
  - intros (t & H1 & H2 & H3 & n & E & H4). exists t. split; [unfold getTime; rewrite H3; reflexivity|].
    apply filter_In. split; [exact H1|]. apply andb_true_iff. split; [|apply Nat.ltb_lt; exact H2].
    apply isSync_iff. exists n, T. auto.
Qed.

Lemma within_close c a b : within c a b = true <-> close c a b.
Proof.
  unfold within, close. destruct (N.ltb_spec b a); rewrite N.ltb_lt; lia.
Qed.

Lemma test_common c (ins : list (sspan A)) T : In T (allTimes c ins) ->
  (forallb (fun sp => existsb (fun t => within c T t) (syncTimes c sp)) ins = true <-> common c ins T).
Proof.
  intros HT. rewrite forallb_forall. unfold common. split.
  - intros H. split.
    + apply allTimes_in in HT. destruct HT as (sp & Hsp & HT). apply syncTimes_in in HT.
      destruct HT as (t & Ht). exists sp, t. auto.
    + intros sp Hsp. specialize (H sp Hsp). apply existsb_exists in H. destruct H as (u & Hu & W).
      apply syncTimes_in in Hu. destruct Hu as (t & Ht). exists t, u. split; [exact Ht|]. apply within_close. exact W.
  - intros (_ & H) sp Hsp. destruct (H sp Hsp) as (t & u & Ht & W). apply existsb_exists. exists u. split.
    + apply syncTimes_in. exists t. exact Ht.
    + apply within_close. exact W.
Qed.

Lemma common_in c (ins : list (sspan A)) T : common c ins T -> In T (allTimes c ins).
Proof.
  intros ((sp & t & Hsp & Ht) & _). apply allTimes_in. exists sp. split; [exact Hsp|]. apply syncTimes_in. exists t. exact Ht.
Qed.

Lemma find_least (p : N -> bool) l x : StronglySorted N.lt l -> find p l = Some x ->
  In x l /\ p x = true /\ forall y, In y l -> p y = true -> (x <= y)%N.
Proof.
  induction 1 as [|a l H IH Ha]; cbn [find]; [discriminate|].
  destruct (p a) eqn:E.
  - intros Q; injection Q as <-. split; [left; reflexivity|]. split; [exact E|].
    intros y [ <- | Hy] _; [lia|]. rewrite Forall_forall in Ha. specialize (Ha y Hy). lia.
  - intros Q. destruct (IH Q) as (I1 & I2 & I3). split; [right; exact I1|]. split; [exact I2|].
    intros y [ <- | Hy] Py; [congruence|auto].
Qed.

Lemma findSyncTime_some c (ins : list (sspan A)) T :
  findSyncTime c ins = Some T <-> earliestCommon c ins T /\ T <> noTime.
Proof.
  unfold findSyncTime.
  set (p := fun cur => forallb (fun sp => existsb (fun t => within c cur t) (syncTimes c sp)) ins).
  destruct (find p (allTimes c ins)) as [x|] eqn:E.
  - destruct (find_least p _ x (allTimes_sorted c ins) E) as (H1 & H2 & H3).
    assert (Hx : earliestCommon c ins x).
    { split; [apply (test_common c ins x H1); exact H2|]. intros T' HT'.
      apply H3; [apply common_in; exact HT'|]. apply (test_common c ins T' (common_in _ _ _ HT')). exact HT'. }
    split.
    + destruct (N.eqb_spec x noTime); [discriminate|]. intros Q; injection Q as <-. auto.
    + intros ((HT & Hle) & Hn). assert (x = T) by (apply N.le_antisymm; [apply (proj2 Hx T HT)|apply Hle, Hx]).
      subst x. destruct (N.eqb_spec T noTime); [contradiction|reflexivity].
  - split; [discriminate|]. intros ((HT & _) & _). exfalso.
    pose proof (find_none _ _ E T (common_in _ _ _ HT)) as Q.
    assert (p T = true) by (apply (test_common c ins T (common_in _ _ _ HT)); exact HT). congruence.
Qed.

Lemma findSyncTime_none c (ins : list (sspan A)) : findSyncTime c ins = None ->
  forall T, earliestCommon c ins T -> T = noTime.
Proof.
  intros E T HT. destruct (N.eq_dec T noTime) as [H|H]; [exact H|]. exfalso.
  assert (findSyncTime c ins = Some T) by (apply findSyncTime_some; auto). congruence.
Qed.

(* ---------- positions ---------- *)

Lemma find_first (p : stag -> bool) l t u :
  StronglySorted (fun a b => tRel a <= tRel b) l -> find p l = Some t -> In u l -> p u = true -> tRel t <= tRel u.
Proof.
  induction 1 as [|a l H IH Ha]; cbn [find]; [discriminate|].
  destruct (p a) eqn:E.
  - intros Q; injection Q as <-. intros [ <- | Hu] _; [lia|]. rewrite Forall_forall in Ha. auto.
  - intros Q [ <- | Hu] Pu; [congruence|]. auto.
Qed.

Lemma preSamples_le c sp i : preSamples c sp i <= i.
Proof. unfold preSamples. destruct (find _ _); lia. Qed.

Lemma postSamples_le c sp i : i < length (ssmp sp) -> i + 1 + postSamples c sp i <= length (ssmp sp).
Proof.
  intros H. unfold postSamples. destruct (find _ _) as [t|] eqn:E; [|lia].
  apply find_some in E. destruct E as [_ E]. apply andb_true_iff in E. destruct E as [E _].
  apply andb_true_iff in E. destruct E as [E1 E2]. apply Nat.ltb_lt in E1; apply Nat.ltb_lt in E2. lia.
Qed.

Lemma postSamples_stops c sp i t : orderedTags sp -> In t (stgs sp) -> isSync c t = true ->
  i < tRel t -> i + 1 + postSamples c sp i <= tRel t \/ length (ssmp sp) <= tRel t.
Proof.
  intros Ho Ht Hs Hi. destruct (Nat.lt_ge_cases (tRel t) (length (ssmp sp))) as [L|L]; [|right; exact L].
  left. unfold postSamples. destruct (find _ _) as [u|] eqn:E.
  - assert (tRel u <= tRel t).
    { eapply find_first; [exact Ho|exact E|exact Ht|]. cbn beta. rewrite Hs, andb_true_r.
      apply andb_true_iff. split; apply Nat.ltb_lt; assumption. }
    apply find_some in E. destruct E as [_ E]. apply andb_true_iff in E. destruct E as [E _].
    apply andb_true_iff in E. destruct E as [E1 E2]. apply Nat.ltb_lt in E1. lia.
  - exfalso. pose proof (find_none _ _ E t Ht) as Q. cbn beta in Q. rewrite Hs, andb_true_r in Q.
    rewrite (proj2 (Nat.ltb_lt _ _) Hi), (proj2 (Nat.ltb_lt _ _) L) in Q. discriminate.
Qed.

(* data of the inputs at a common time *)
Lemma dataOf_common c (ins : list (sspan A)) T sp : common c ins T -> Forall orderedTags ins -> In sp ins ->
  exists t, find (fun t => within c (getTime t) T) (stgs sp) = Some t /\ In t (stgs sp)
    /\ close c (getTime t) T /\ tRel t < length (ssmp sp)
    /\ dataOf c T sp = Some (mkData (tRel t) (preSamples c sp (tRel t)) (postSamples c sp (tRel t))).
Proof.
  intros (_ & H) Ho Hsp. destruct (H sp Hsp) as (u & time & (U1 & U2 & U3 & U4) & W).
  assert (Wu : within c (getTime u) T = true).
  { apply within_close. unfold getTime. rewrite U3. unfold close in *. lia. }
  unfold dataOf. destruct (find (fun t => within c (getTime t) T) (stgs sp)) as [t|] eqn:E.
  - exists t. split; [reflexivity|]. pose proof (find_some _ _ E) as [E1 E2]. split; [exact E1|].
    split; [apply within_close; exact E2|]. split; [|reflexivity].
    rewrite Forall_forall in Ho. pose proof (find_first _ _ _ _ (Ho sp Hsp) E U1 Wu). lia.
  - exfalso. pose proof (find_none _ _ E u U1) as Q. cbn beta in Q. congruence.
Qed.

Lemma somes_all {X : Type} (l : list (option X)) : (forall x, In x l -> x <> None) ->
  length (somes l) = length l /\ forall i, nth_error (somes l) i = match nth_error l i with Some x => x | None => None end.
Proof.
  induction l as [|[x|] l IH]; cbn; intros H.
  - split; [reflexivity|]. intros [|i]; reflexivity.
  - destruct IH as [I1 I2]; [intros y Hy; apply H; auto|]. split; [lia|]. intros [|i]; [reflexivity|]. cbn. apply I2.
  - exfalso. apply (H None); [auto|reflexivity].
Qed.

Lemma somes_len {X : Type} (l : list (option X)) : length (somes l) <= length l.
Proof. induction l as [|[x|] l IH]; cbn; lia. Qed.

Lemma synchronize_some c (ins : list (sspan A)) T : Forall orderedTags ins -> findSyncTime c ins = Some T ->
  length (synchronize c ins) = length ins
  /\ forall i sp, nth_error ins i = Some sp -> nth_error (synchronize c ins) i = dataOf c T sp.
Proof.
  intros Ho E. unfold synchronize. rewrite E. apply findSyncTime_some in E. destruct E as ((HT & _) & _).
  destruct (somes_all (map (dataOf c T) ins)) as [H1 H2].
  { intros x Hx. apply in_map_iff in Hx. destruct Hx as (sp & <- & Hsp).
    destruct (dataOf_common c ins T sp HT Ho Hsp) as (t & _ & _ & _ & _ & ->). discriminate. }
  rewrite map_length in H1. split; [exact H1|]. intros i sp Hi. rewrite H2, nth_error_map, Hi. reflexivity.
Qed.

(* ---------- the shape of every call ---------- *)

Lemma inputTags_zero sp d : inputTags sp d 0 = [].
Proof.
  unfold inputTags. replace (filter _ (stgs sp)) with (@nil stag); [reflexivity|].
  symmetry. induction (stgs sp) as [|t l IH]; cbn [filter]; [reflexivity|].
  replace ((d <=? tRel t) && (tRel t <? 0 + d)) with false; [exact IH|]. symmetry. lia.
Qed.

(* what one port did: skipped d, published k, reported or not *)
Definition portShape (sp : sspan A) (pending : N) (r : pres A) (pending' : N) (d k : nat) (rep : bool) : Prop :=
  d + k <= length (ssmp sp) /\ pCons r = d + k /\ pOut r = firstn k (skipn d (ssmp sp))
  /\ (if rep then pTags r = dropTag (pending + N.of_nat d) ++ inputTags sp d k /\ pending' = 0%N
      else k = 0 /\ pTags r = [] /\ pending' = (pending + N.of_nat d)%N).

Lemma syncBulk_shape c st (ins : list (sspan A)) outs st' rs : goodCall st ins outs ->
  syncBulk c st ins outs = (st', rs) ->
  length rs = length ins /\ length (nDrop st') = length ins
  /\ exists k rep, (forall cap, In cap outs -> k <= cap)
     /\ forall i sp p, nth_error ins i = Some sp -> nth_error (nDrop st) i = Some p ->
        exists r p' d, nth_error rs i = Some r /\ nth_error (nDrop st') i = Some p' /\ portShape sp p r p' d k rep.
Proof.
  intros (Hne & Hlo & Hln & Ho) H. unfold syncBulk in H. cbn zeta in H.
  destruct (length (synchronize c ins) =? length ins) eqn:El.
  - apply Nat.eqb_eq in El.
    destruct (findSyncTime c ins) as [T|] eqn:ET.
    2: { exfalso. unfold synchronize in El. rewrite ET in El. destruct ins; [congruence|discriminate]. }
    destruct (synchronize_some c ins T Ho ET) as [_ Hd].
    apply findSyncTime_some in ET. destruct ET as ((HT & _) & _).
    set (minPre := minl (map dPre (synchronize c ins))) in *.
    set (minPost := minl (map dPost (synchronize c ins))) in *.
    set (k := Nat.min (minPre + 1 + minPost) (minl outs)) in *.
    injection H as <- <-. split; [apply map3_length; [exact El|exact Hln]|]. split; [cbn; apply map_length|].
    exists k, true. split; [intros cap Hc; pose proof (minl_le outs cap Hc); lia|].
    intros i sp p Hsp Hp. pose proof (nth_error_In _ _ Hsp) as Hin.
    destruct (dataOf_common c ins T sp HT Ho Hin) as (t & _ & _ & _ & Hlt & Ed).
    specialize (Hd i sp Hsp). rewrite Ed in Hd. set (dd := mkData _ _ _) in *.
    exists (alignPort minPre k sp dd p), 0%N, (tRel t - minPre).
    split; [rewrite map3_nth, Hsp, Hd, Hp; reflexivity|].
    split; [cbn [nDrop]; rewrite nth_error_map, Hsp; reflexivity|].
    assert (L1 : minPre <= dPre dd).
    { apply minl_le. apply in_map. eapply nth_error_In. exact Hd. }
    assert (L2 : minPost <= dPost dd).
    { apply minl_le. apply in_map. eapply nth_error_In. exact Hd. }
    cbn [dPre dPost dd] in L1, L2. pose proof (preSamples_le c sp (tRel t)). pose proof (postSamples_le c sp (tRel t) Hlt).
    unfold portShape, alignPort. cbn [pCons pOut pTags dIdx dd]. split; [lia|]. split; [reflexivity|]. split; [reflexivity|auto].
  - set (k := Nat.min (minl (map (beforeSync c) ins)) (minl outs)) in *.
    destruct (synced st && (0 <? k)) eqn:Es.
    + injection H as <- <-. split; [apply map2_length; exact Hln|]. split; [cbn; apply map_length|].
      exists k, true. split; [intros cap Hc; pose proof (minl_le outs cap Hc); lia|].
      intros i sp p Hsp Hp. exists (copyPort k sp p), 0%N, 0.
      split; [rewrite map2_nth, Hsp, Hp; reflexivity|].
      split; [cbn [nDrop]; rewrite nth_error_map, Hsp; reflexivity|].
      assert (L : k <= length (ssmp sp)).
      { pose proof (minl_le (map (beforeSync c) ins) (beforeSync c sp)) as Q.
        assert (beforeSync c sp <= length (ssmp sp)) by (unfold beforeSync; destruct (find _ _); lia).
        specialize (Q (in_map _ _ _ (nth_error_In _ _ Hsp))). lia. }
      unfold portShape, copyPort. cbn [pCons pOut pTags skipn N.of_nat]. rewrite N.add_0_r.
      split; [lia|]. split; [reflexivity|]. split; [reflexivity|auto].
    + injection H as <- <-. split; [apply map_length|]. split; [cbn; apply map2_length; exact Hln|].
      exists 0, false. split; [lia|]. intros i sp p Hsp Hp.
      exists (dropPort c sp), (p + N.of_nat (excess c sp))%N, (excess c sp).
      split; [rewrite nth_error_map, Hsp; reflexivity|].
      split; [cbn [nDrop]; rewrite map2_nth, Hsp, Hp; reflexivity|].
      unfold portShape, dropPort. cbn [pCons pOut pTags firstn].
      assert (excess c sp <= length (ssmp sp)) by (clear; unfold excess; destruct (length (ssmp sp) <? hist c); [apply Nat.le_0_l|apply Nat.le_sub_l]).
      split; [lia|]. split; [lia|]. split; [reflexivity|auto].
Qed.

Lemma shape_out sp p r p' d k rep : portShape sp p r p' d k rep -> length (pOut r) = k /\ skipped r = d.
Proof.
  intros (H1 & H2 & H3 & _). assert (length (pOut r) = k).
  { rewrite H3, firstn_length, skipn_length. lia. }
  split; [assumption|]. unfold skipped. lia.
Qed.

(* ---------- tags ---------- *)

Lemma forwardedAt_app p l m : forwardedAt p (l ++ m) = forwardedAt p l ++ forwardedAt p m.
Proof. unfold forwardedAt. apply flat_map_app. Qed.

Lemma forwardedAt_drop p n : forwardedAt p (dropTag n) = [].
Proof. unfold dropTag. destruct (0 <? n)%N; reflexivity. Qed.

Lemma forwardedAt_input sp d k p : p < k -> forwardedAt p (inputTags sp d k) = mapsAt (d + p) sp.
Proof.
  intros Hp. unfold inputTags, mapsAt, forwardedAt. induction (stgs sp) as [|t l IH]; cbn [filter map flat_map]; [reflexivity|].
  destruct ((d <=? tRel t) && (tRel t <? k + d)) eqn:E; cbn [map flat_map snd fst].
  - rewrite IH. f_equal. destruct (tRel t - d =? p) eqn:E1, (tRel t =? d + p) eqn:E2; try reflexivity; lia.
  - rewrite IH. replace (tRel t =? d + p) with false by lia. reflexivity.
Qed.

Lemma forwardedAt_beyond sp d k p : k <= p -> forwardedAt p (inputTags sp d k) = [].
Proof.
  intros Hp. unfold inputTags, forwardedAt. induction (stgs sp) as [|t l IH]; cbn [filter map flat_map]; [reflexivity|].
  destruct ((d <=? tRel t) && (tRel t <? k + d)) eqn:E; cbn [map flat_map snd fst]; [|exact IH].
  rewrite IH, app_nil_r. replace (tRel t - d =? p) with false by lia. reflexivity.
Qed.

Lemma reports_input base sp d k : reportsOf base (inputTags sp d k) = [].
Proof.
  unfold inputTags, reportsOf. induction (filter _ (stgs sp)) as [|t l IH]; cbn [map flat_map snd]; [reflexivity|exact IH].
Qed.

Lemma reports_drop base n : reportsOf base (dropTag n) = if (0 <? n)%N then [(base, toSize n)] else [].
Proof. unfold dropTag, reportsOf. destruct (0 <? n)%N; cbn; [rewrite Nat.add_0_r|]; reflexivity. Qed.

Lemma reportsOf_app base l m : reportsOf base (l ++ m) = reportsOf base l ++ reportsOf base m.
Proof. apply flat_map_app. Qed.

(* ---------- accounting ---------- *)

Lemma nth_error_firstn_some {X : Type} n : forall (l : list X) p x, nth_error (firstn n l) p = Some x -> nth_error l p = Some x.
Proof.
  induction n as [|n IH]; intros [|y l] [|p] x H; cbn in *; try discriminate; auto.
Qed.

Lemma nth_error_skipn_some {X : Type} n : forall (l : list X) p, nth_error (skipn n l) p = nth_error l (n + p).
Proof. induction n as [|n IH]; intros [|y l] p; cbn; try reflexivity; [destruct p; reflexivity|apply IH]. Qed.

Lemma upTo_app p l m : reportedUpTo p (l ++ m) = (reportedUpTo p l + reportedUpTo p m)%N.
Proof.
  unfold reportedUpTo. induction l as [|x l IH]; cbn [app fold_right]; [lia|]. rewrite IH.
  destruct (fst x <=? p); lia.
Qed.

Lemma reportedAll_app l m : reportedAll (l ++ m) = (reportedAll l + reportedAll m)%N.
Proof. unfold reportedAll. induction l as [|x l IH]; cbn [app fold_right]; [lia|]. rewrite IH. lia. Qed.

Lemma outReports_base (prs : list (pres A)) : forall base, Forall (fun x => base <= fst x) (outReports base prs).
Proof.
  induction prs as [|r prs IH]; intros base; cbn [outReports]; [constructor|].
  apply Forall_app. split.
  - apply Forall_forall. intros x Hx. unfold reportsOf in Hx. apply in_flat_map in Hx.
    destruct Hx as (t & _ & Hx). destruct (snd t); [destruct Hx as [ <- |[]]; cbn; lia|contradiction].
  - eapply Forall_impl; [|apply IH]. cbn. intros; lia.
Qed.

Lemma upTo_before p reps : Forall (fun x => p < fst x) reps -> reportedUpTo p reps = 0%N.
Proof.
  induction 1 as [|x l H _ IH]; cbn; [reflexivity|]. replace (fst x <=? p) with false by lia. exact IH.
Qed.

Lemma toSize_small n : (n < 2 ^ 32)%N -> toSize n = n.
Proof. intros H. unfold toSize. apply N.mod_small. exact H. Qed.

(* One port over a run, with the base position on the output, what is pending
   and what remains of the stream. *)
Lemma run_account c n i : forall (cs : list (list (sspan A) * list nat)) st rss st' (stream : list A) base pend,
  i < n -> goodRun n cs -> length (nDrop st) = n -> nth_error (nDrop st) i = Some pend ->
  runSync c st cs = (rss, st') -> fedSync i stream cs (portRes i rss) ->
  (pend + N.of_nat (totalSkipped (portRes i rss)) < 2 ^ 32)%N ->
  length (nDrop st') = n
  /\ (exists pend', nth_error (nDrop st') i = Some pend'
      /\ (reportedAll (outReports base (portRes i rss)) + pend'
          = pend + N.of_nat (totalSkipped (portRes i rss)))%N)
  /\ (forall p x, nth_error (outStream (portRes i rss)) p = Some x ->
       exists q, N.of_nat q = (N.of_nat p + reportedUpTo (base + p) (outReports base (portRes i rss)) - pend)%N
              /\ (pend <= reportedUpTo (base + p) (outReports base (portRes i rss)))%N
              /\ nth_error stream q = Some x).
Proof.
  induction cs as [|[ins outs] cs IH]; intros st rss st' stream base pend Hi Hg Hl Hp Hr Hf Hb.
  - cbn in Hr. injection Hr as <- <-. cbn in *. split; [exact Hl|]. split.
    + exists pend. split; [exact Hp|]. lia.
    + intros p x E. destruct p; discriminate E.
  - cbn [runSync] in Hr. destruct (syncBulk c st ins outs) as [st1 rs] eqn:Eb.
    destruct (runSync c st1 cs) as [rss1 st2] eqn:Er. injection Hr as <- <-.
    destruct Hg as [Hn Hg]. apply Forall_cons_iff in Hg. destruct Hg as [(G1 & G2 & G3) Hg']. cbn [fst snd] in *.
    assert (Hgc : goodCall st ins outs).
    { split; [intros ->; cbn in *; lia|]. split; [lia|]. split; [lia|exact G3]. }
    destruct (syncBulk_shape c st ins outs st1 rs Hgc Eb) as (S1 & S2 & k & rep & _ & S3).
    cbn [portRes map fedSync] in Hf. destruct Hf as ((m & sp & Hsp & Em) & Hf).
    destruct (S3 i sp pend Hsp Hp) as (r & p' & d & R1 & R2 & R3).
    assert (Er' : nth i rs noRes = r) by (apply nth_error_nth; exact R1).
    cbn [portRes map] in *. rewrite Er' in *. fold (portRes i rss1) in *.
    destruct (shape_out _ _ _ _ _ _ _ R3) as [Lo Sk]. cbn [totalSkipped fold_right] in Hb. rewrite Sk in Hb.
    fold (totalSkipped (portRes i rss1)) in Hb.
    assert (Hp' : (p' + N.of_nat (totalSkipped (portRes i rss1)) < 2 ^ 32)%N
                  /\ (reportsOf base (pTags r) = [] /\ p' = pend + N.of_nat d
                      \/ reportsOf base (pTags r) = [(base, pend + N.of_nat d)] /\ p' = 0)%N).
    { destruct R3 as (_ & _ & _ & R3). destruct rep.
      - destruct R3 as [E1 ->]. split; [lia|]. rewrite E1, reportsOf_app, reports_input, app_nil_r, reports_drop.
        rewrite toSize_small by lia. destruct (0 <? pend + N.of_nat d)%N eqn:Ez; [auto|]. left. split; [reflexivity|]. lia.
      - destruct R3 as (_ & E1 & ->). split; [lia|]. left. rewrite E1. split; reflexivity. }
    destruct Hp' as [Hb' Hrep].
    assert (Hg2 : goodRun n cs) by (split; assumption).
    assert (S2' : length (nDrop st1) = n) by lia.
    destruct (IH st1 rss1 st2 (skipn (pCons r) stream) (base + length (pOut r)) p' Hi Hg2 S2' R2 Er Hf Hb')
      as (I1 & (pend' & I2 & I3) & I4).
    split; [exact I1|]. split.
    + exists pend'. split; [exact I2|]. cbn [outReports totalSkipped fold_right]. rewrite Sk, reportedAll_app.
      fold (totalSkipped (portRes i rss1)).
      destruct Hrep as [(E1 & E2)|(E1 & E2)]; rewrite E1; cbn [reportedAll fold_right snd]; lia.
    + intros p x Ex. cbn [outStream map concat] in Ex. fold (outStream (portRes i rss1)) in Ex.
      cbn [outReports]. rewrite upTo_app.
      destruct R3 as (Q1 & Q2 & Q3 & Q4). 
      destruct (Nat.lt_ge_cases p (length (pOut r))) as [L|L].
      * rewrite nth_error_app1 in Ex by exact L.
        rewrite (upTo_before (base + p) (outReports (base + length (pOut r)) (portRes i rss1))).
        2: { eapply Forall_impl; [|apply outReports_base]. cbn. intros; lia. }
        destruct rep; [|destruct Q4 as (-> & _); lia].
        assert (Eup : reportedUpTo (base + p) (reportsOf base (pTags r)) = (pend + N.of_nat d)%N).
        { destruct Hrep as [(E1 & E2)|(E1 & E2)]; rewrite E1; cbn [reportedUpTo fold_right fst snd].
          - destruct Q4 as [_ Q4]. lia.
          - replace (base <=? base + p) with true by lia. lia. }
        rewrite Eup. exists (d + p). split; [lia|]. split; [lia|].
        rewrite Q3 in Ex. apply nth_error_firstn_some in Ex. rewrite nth_error_skipn_some, Em in Ex.
        apply nth_error_firstn_some in Ex. exact Ex.
      * rewrite nth_error_app2 in Ex by exact L.
        destruct (I4 _ _ Ex) as (q & J1 & J2 & J3).
        replace (base + length (pOut r) + (p - length (pOut r))) with (base + p) in * by lia.
        assert (Eup : (reportedUpTo (base + p) (reportsOf base (pTags r)) + p' = pend + N.of_nat d)%N).
        { destruct Hrep as [(E1 & E2)|(E1 & E2)]; rewrite E1; cbn [reportedUpTo fold_right fst snd]; [lia|].
          replace (base <=? base + p) with true by lia. lia. }
        exists (pCons r + q). split; [lia|]. split; [lia|].
        rewrite nth_error_skipn_some in J3. exact J3.
Qed.

End Sync.
