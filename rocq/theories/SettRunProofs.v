(** Explicitly given values, tags, staging, reset and application over all histories of the default context. *)
From Coq Require Import List NArith Arith Lia Bool Sorting.Sorted.
From Coq Require Import ZifyBool ZifyNat ZifyN.
From Verif Require Import SettModel SettSpec SettProofs SettHistProofs.
Import ListNotations.
Local Open Scope N_scope.

(* ------------------------------------------------------------------ the loops, name by name *)

Lemma lastIn_from k ps : forall a, fold_left (fun a kv => if fst kv =? k then Some (snd kv) else a) ps a
  = match lastIn k ps with Some v => Some v | None => a end.
Proof.
  unfold lastIn. induction ps as [|[x y] ps IH]; intros a; cbn [fold_left fst snd]; [reflexivity|].
  rewrite IH. rewrite (IH (if x =? k then Some y else None)). destruct (x =? k); destruct (fold_left _ ps None); reflexivity.
Qed.

Lemma lastIn_cons k x y ps : lastIn k ((x, y) :: ps) = match lastIn k ps with Some v => Some v | None => if x =? k then Some y else None end.
Proof. unfold lastIn at 1. cbn [fold_left fst snd]. apply lastIn_from. Qed.

Lemma lastIn_notin k ps : ~ In k (map fst ps) -> lastIn k ps = None.
Proof.
  induction ps as [|[x y] ps IH]; [reflexivity|]. cbn [map fst In]. intros H. rewrite lastIn_cons, IH by tauto.
  destruct (N.eqb_spec x k); [exfalso; apply H; auto|reflexivity].
Qed.

Lemma lastIn_in k ps v : lastIn k ps = Some v -> In (k, v) ps.
Proof.
  induction ps as [|[x y] ps IH]; [discriminate|]. rewrite lastIn_cons. destruct (lastIn k ps).
  - intros E. injection E as ->. right. auto.
  - destruct (N.eqb_spec x k) as [->|]; [|discriminate]. intros E. injection E as ->. left. reflexivity.
Qed.

Lemma lastIn_noDup k ps : noDup ps -> lastIn k ps = pget ps k.
Proof.
  unfold noDup. induction ps as [|[x y] ps IH]; [reflexivity|]. cbn [map fst]. intros H. apply NoDup_cons_iff in H. destruct H as [H1 H2].
  rewrite lastIn_cons, IH by exact H2. cbn [pget]. destruct (N.eqb_spec x k) as [->|]; [rewrite pget_notin by exact H1; reflexivity|].
  destruct (pget ps k); reflexivity.
Qed.

Lemma convertible_tail B x ps : convertible B (x :: ps) -> convertible B ps.
Proof. intros H k v Hi. apply H. right. exact Hi. Qed.

Lemma convertible_ok B ps : convertible B ps ->
  existsb (fun kv => has (fst kv) (writ B) && match conv B (fst kv) (snd kv) with None => true | _ => false end) ps = false.
Proof.
  intros H. apply not_true_iff_false. intros E. apply existsb_exists in E. destruct E as ([k v] & Hi & E). cbn [fst snd] in E.
  apply andb_true_iff in E. destruct E as [E1 E2]. specialize (H k v Hi E1). destruct (conv B k v); [discriminate|contradiction].
Qed.

Lemma overlay_get B k : has k (writ B) = true -> forall ps base, convertible B ps ->
  pget (overlay B base ps) k = match lastIn k ps with Some v => conv B k v | None => pget base k end.
Proof.
  intros Hk. unfold overlay. induction ps as [|[x y] ps IH]; intros base Hc; [reflexivity|].
  rewrite lastIn_cons. cbn [fold_left fst snd]. rewrite IH by (eapply convertible_tail, Hc).
  destruct (lastIn k ps); [reflexivity|].
  destruct (N.eqb_spec x k) as [->|Hx].
  - rewrite Hk. pose proof (Hc k y (or_introl eq_refl) Hk). destruct (conv B k y); [|contradiction]. rewrite pget_pput, N.eqb_refl. reflexivity.
  - destruct (has x (writ B)); [|reflexivity]. destruct (conv B x y); [|reflexivity]. rewrite pget_pput.
    destruct (N.eqb_spec x k); [congruence|reflexivity].
Qed.

Lemma pput_in m k v x y : In (x, y) (pput m k v) -> (x, y) = (k, v) \/ In (x, y) m.
Proof.
  induction m as [|[a b] m IH]; cbn [pput In].
  - intros [E|[]]; left; congruence.
  - destruct (a =? k); cbn [In]; intros [E|H]; [left; congruence|auto|auto|]. destruct (IH H); auto.
Qed.

Lemma overlay_ok B : sane B -> forall ps base, noDup base -> typed B base -> noDup (overlay B base ps) /\ typed B (overlay B base ps).
Proof.
  intros [Hs _]. unfold overlay. induction ps as [|[x y] ps IH]; intros base H1 H2; cbn [fold_left fst snd]; [auto|].
  apply IH.
  - destruct (has x (writ B)); [|exact H1]. destruct (conv B x y); [apply pput_noDup|]; exact H1.
  - destruct (has x (writ B)); [|exact H2]. destruct (conv B x y) as [y'|] eqn:E; [|exact H2].
    intros k v Hi. apply pput_in in Hi. destruct Hi as [Ei|Hi]; [injection Ei as -> ->; eapply Hs, E|apply H2, Hi].
Qed.

Lemma setLoop_auto B k : has k (writ B) = true -> forall ps m au ret, convertible B ps ->
  has k (snd (fst (fst (setLoop B ps m au ret)))) = has k au && match lastIn k ps with None => true | Some _ => false end.
Proof.
  intros Hk. induction ps as [|[x y] ps IH]; intros m au ret Hc; [cbn; rewrite andb_true_r; reflexivity|].
  rewrite lastIn_cons. cbn [setLoop]. pose proof (convertible_tail _ _ _ Hc) as Hc'.
  destruct (has x (writ B)) eqn:Ex.
  - pose proof (Hc x y (or_introl eq_refl) Ex) as Hy. destruct (conv B x y) as [y'|]; [|contradiction].
    rewrite IH by exact Hc'. rewrite has_without. destruct (lastIn k ps); [rewrite !andb_false_r; reflexivity|].
    rewrite N.eqb_sym. destruct (x =? k); cbn [negb]; rewrite ?andb_true_r, ?andb_false_r; reflexivity.
  - rewrite IH by exact Hc'. destruct (lastIn k ps); [reflexivity|]. destruct (N.eqb_spec x k); [congruence|reflexivity].
Qed.

Lemma stageLoop_ok B : forall ps stg ret, convertible B ps -> exists stg' ret', stageLoop B ps stg ret = (stg', Some ret')
  /\ (noDup stg -> noDup stg')
  /\ (forall k, has k (writ B) = true -> pget stg' k = match lastIn k ps with Some v => conv B k v | None => pget stg k end).
Proof.
  induction ps as [|[x y] ps IH]; intros stg ret Hc; cbn [stageLoop].
  - exists stg, ret. repeat split; auto.
  - pose proof (convertible_tail _ _ _ Hc) as Hc'. destruct (has x (writ B)) eqn:Ex.
    + pose proof (Hc x y (or_introl eq_refl) Ex) as Hy. destruct (conv B x y) as [y'|] eqn:Ey; [|contradiction].
      destruct (IH (pput stg x y') ret Hc') as (stg' & ret' & E & H1 & H2). exists stg', ret'. split; [exact E|].
      split; [intros Hn; apply H1, pput_noDup, Hn|]. intros k Hk. rewrite H2 by exact Hk. rewrite lastIn_cons.
      destruct (lastIn k ps); [reflexivity|]. rewrite pget_pput. destruct (N.eqb_spec x k) as [->|]; [symmetry; exact Ey|reflexivity].
    + destruct (IH stg (pput ret x y) Hc') as (stg' & ret' & E & H1 & H2). exists stg', ret'. split; [exact E|]. split; [exact H1|].
      intros k Hk. rewrite H2 by exact Hk. rewrite lastIn_cons. destruct (lastIn k ps); [reflexivity|].
      destruct (N.eqb_spec x k) as [->|]; [congruence|reflexivity].
Qed.

Lemma applyLoop_get B : forall ps f ap fw k, noDup ps ->
  pget (fst (fst (applyLoop B ps f ap fw))) k
  = match pget ps k with Some v => if has k (writ B) && okVal B k v then Some v else pget f k | None => pget f k end.
Proof.
  unfold noDup. induction ps as [|[x y] ps IH]; intros f ap fw k Hn; [reflexivity|]. cbn [map fst] in Hn.
  apply NoDup_cons_iff in Hn. destruct Hn as [Hn1 Hn2]. cbn [applyLoop pget].
  assert (Hx : x = k -> pget ps k = None) by (intros ->; apply pget_notin, Hn1).
  destruct (has x (writ B)) eqn:Ex; [destruct (okVal B x y) eqn:Eo|]; rewrite IH by exact Hn2;
    destruct (N.eqb_spec x k) as [->|Hne]; rewrite ?(Hx eq_refl), ?pget_pput, ?N.eqb_refl, ?Ex, ?Eo; cbn [andb]; try reflexivity.
  destruct (N.eqb_spec x k); [congruence|]. reflexivity.
Qed.

Lemma applyLoop_noDup B : forall ps f ap fw, noDup f -> noDup (fst (fst (applyLoop B ps f ap fw))).
Proof.
  induction ps as [|[x y] ps IH]; intros f ap fw H; cbn [applyLoop]; [exact H|].
  destruct (has x (writ B)); [destruct (okVal B x y)|]; apply IH; auto using pput_noDup.
Qed.

Lemma applyLoop_typed B : forall ps f ap fw, typed B f -> typed B (fst (fst (applyLoop B ps f ap fw))).
Proof.
  induction ps as [|[x y] ps IH]; intros f ap fw H; cbn [applyLoop]; [exact H|].
  destruct (has x (writ B)); [destruct (okVal B x y) eqn:E|]; apply IH; auto.
  intros k v Hi. apply pput_in in Hi. destruct Hi as [Ei|Hi]; [|apply H, Hi]. injection Ei as -> ->.
  unfold okVal in E. apply andb_true_iff in E. apply E.
Qed.

(** Forwarded values are among the staged ones and have their values. *)
Lemma applyLoop_fw B : forall ps f ap fw k v, pget (snd (applyLoop B ps f ap fw)) k = Some v ->
  pget fw k = Some v \/ (In (k, v) ps /\ has k (writ B) = true).
Proof.
  induction ps as [|[x y] ps IH]; intros f ap fw k v; cbn [applyLoop]; [auto|].
  destruct (has x (writ B)) eqn:Ex.
  - assert (G : forall f' ap', pget (snd (applyLoop B ps f' ap' (if fwdTag B x then pput fw x y else fw))) k = Some v ->
                 pget fw k = Some v \/ In (k, v) ((x, y) :: ps) /\ has k (writ B) = true).
    { intros f' ap' H. apply IH in H. destruct H as [H|[H1 H2]]; [|right; split; [right|]; assumption].
      destruct (fwdTag B x); [|auto]. rewrite pget_pput in H. destruct (N.eqb_spec x k) as [->|]; [|auto].
      injection H as ->. right. split; [left; reflexivity|exact Ex]. }
    destruct (okVal B x y); apply G.
  - intros H. apply IH in H. destruct H as [H|[H1 H2]]; [auto|right; split; [right|]; assumption].
Qed.

Lemma applyLoop_fw_noDup B : forall ps f ap fw, noDup fw -> noDup (snd (applyLoop B ps f ap fw)).
Proof.
  induction ps as [|[x y] ps IH]; intros f ap fw H; cbn [applyLoop]; [exact H|].
  destruct (has x (writ B)); [destruct (okVal B x y)|]; apply IH; auto; destruct (fwdTag B x); auto using pput_noDup.
Qed.

Lemma tagLoop_get B ch act au : forall ps stg was, noDup ps ->
  let r := tagLoop B ps ch act au stg was in
  (noDup stg -> noDup (fst r))
  /\ (forall k, pget (fst r) k = match pget ps k with
                                | Some v => if has k (writ B) && negb (negb ch && match pget act k with Some a => a =? v | None => false end) && has k au && holds B k v
                                            then Some v else pget stg k
                                | None => pget stg k end)
  /\ (snd r = false -> was = false /\ fst r = stg).
Proof.
  unfold noDup. induction ps as [|[x y] ps IH]; intros stg was Hn; [cbn; repeat split; auto|]. cbn [map fst] in Hn.
  apply NoDup_cons_iff in Hn. destruct Hn as [Hn1 Hn2]. cbn [tagLoop].
  assert (Hx : forall k, x = k -> pget ps k = None) by (intros k <-; apply pget_notin, Hn1).
  assert (Skip : (has x (writ B) && negb (negb ch && match pget act x with Some a => a =? y | None => false end) && has x au && holds B x y) = false ->
    let r := tagLoop B ps ch act au stg was in
    (noDup stg -> noDup (fst r))
    /\ (forall k, pget (fst r) k = match pget ((x, y) :: ps) k with
                                | Some v => if has k (writ B) && negb (negb ch && match pget act k with Some a => a =? v | None => false end) && has k au && holds B k v
                                            then Some v else pget stg k
                                | None => pget stg k end)
    /\ (snd r = false -> was = false /\ fst r = stg)).
  { intros Hf. specialize (IH stg was Hn2). cbv zeta in IH. destruct IH as (I1 & I2 & I3). cbv zeta. split; [exact I1|]. split; [|exact I3].
    intros k. rewrite I2. cbn [pget]. destruct (N.eqb_spec x k) as [->|]; [|reflexivity]. rewrite (Hx k eq_refl), Hf. reflexivity. }
  destruct (has x (writ B)) eqn:Ex; [|apply Skip; reflexivity].
  destruct (negb ch && match pget act x with Some a => a =? y | None => false end) eqn:Es; [apply Skip; reflexivity|].
  destruct (has x au && holds B x y) eqn:Eh; [|apply Skip; cbn [negb andb] in *; exact Eh].
  clear Skip. specialize (IH (pput stg x y) true Hn2). cbv zeta in IH |- *. destruct IH as (I1 & I2 & I3).
  split; [intros H; apply I1, pput_noDup, H|]. split; [|intros H; destruct (I3 H); discriminate].
  intros k. rewrite I2, pget_pput. cbn [pget]. destruct (N.eqb_spec x k) as [->|]; [|reflexivity].
  rewrite (Hx k eq_refl), Ex, Es. cbn [negb andb]. rewrite Eh. reflexivity.
Qed.

(** Names not in the auto-update set are never staged by a tag, whatever the tag holds. *)
Lemma tagLoop_skip B ch act au k : has k au = false -> forall ps stg was,
  pget (fst (tagLoop B ps ch act au stg was)) k = pget stg k.
Proof.
  intros Hk. induction ps as [|[x y] ps IH]; intros stg was; cbn [tagLoop]; [reflexivity|].
  destruct (has x (writ B)); [|apply IH]. destruct (negb ch && _); [apply IH|]. destruct (has x au) eqn:Ea; cbn [andb]; [|apply IH].
  destruct (holds B x y); [|apply IH]. rewrite IH, pget_pput. destruct (N.eqb_spec x k) as [->|]; [congruence|reflexivity].
Qed.

Lemma tagLoop_misc B ch act au : forall ps stg was, let r := tagLoop B ps ch act au stg was in
  (noDup stg -> noDup (fst r)) /\ (snd r = false -> was = false /\ fst r = stg).
Proof.
  induction ps as [|[x y] ps IH]; intros stg was; cbn [tagLoop]; [cbn; auto|].
  destruct (has x (writ B)); [|apply IH]. destruct (negb ch && _); [apply IH|].
  destruct (has x au && holds B x y); [|apply IH].
  specialize (IH (pput stg x y) true). cbv zeta in IH |- *. destruct IH as [I1 I2]. split; [intros H; apply I1, pput_noDup, H|].
  intros H. destruct (I2 H). discriminate.
Qed.

Lemma pget_filter (m : pmap) au k :
  pget (filter (fun kv => negb (has (fst kv) au)) m) k = if has k au then None else pget m k.
Proof.
  induction m as [|[x y] m IH]; cbn [filter fst pget]; [destruct (has k au); reflexivity|].
  destruct (has x au) eqn:Ex; cbn [negb pget].
  - rewrite IH. destruct (N.eqb_spec x k) as [->|]; [rewrite Ex|]; reflexivity.
  - destruct (N.eqb_spec x k) as [->|]; [rewrite Ex; reflexivity|exact IH].
Qed.

Lemma filter_noDup (m : pmap) P : noDup m -> noDup (filter P m).
Proof.
  unfold noDup. induction m as [|[x y] m IH]; cbn [filter map fst]; intros H; [constructor|].
  apply NoDup_cons_iff in H. destruct H as [H1 H2]. destruct (P (x, y)); cbn [map fst]; [|auto].
  constructor; [|auto]. intros Hi. apply H1. apply in_map_iff in Hi. destruct Hi as (z & E & Hi). apply filter_In in Hi.
  apply in_map_iff. exists z. split; [exact E|apply Hi].
Qed.

Lemma typed_convertible B m : sane B -> typed B m -> convertible B m.
Proof. intros [_ H] Ht k v Hi _. rewrite (H k v (Ht k v Hi)). discriminate. Qed.

Lemma typed_filter B m P : typed B m -> typed B (filter P m).
Proof. intros H k v Hi. apply filter_In in Hi. apply H, Hi. Qed.

(* ------------------------------------------------------------------ activation of a newer entry of the same context *)

Lemma setStaged_ok B s ps : convertible B ps -> noDup (staged s) -> exists s' r, setStaged B s ps = (s', Some r)
  /\ noDup (staged s') /\ (staged s' <> [] -> chg s' = true)
  /\ (forall k, has k (writ B) = true -> pget (staged s') k = match lastIn k ps with Some v => conv B k v | None => pget (staged s) k end).
Proof.
  intros Hc Hn. unfold setStaged. destruct (stageLoop_ok B ps (staged s) [] Hc) as (stg & ret & -> & H1 & H2).
  eexists _, ret. split; [reflexivity|]. destruct stg as [|x stg]; cbn [isEmpty staged setStagedMap setChg chg].
  - split; [auto|]. split; [congruence|exact H2].
  - split; [auto|]. split; [reflexivity|exact H2].
Qed.

Lemma activate_newer B pred fuel s now c b m au : sane B ->
  findBest pred fuel s (timed now c) = Some b -> getBest pred fuel s (timed now c) = Some m ->
  snd (actx s) = snd b -> actx s <> b -> aget (autoU s) b = Some au ->
  noDup m -> typed B m -> noDup (staged s) ->
  exists s', activate B pred fuel s now c = (s', Some (Some b))
    /\ autoU s' = autoU s /\ actx s' = b /\ chg s' = true /\ noDup (staged s')
    /\ forall k, has k (writ B) = true ->
         pget (staged s') k = match (if has k au then None else pget m k) with Some v => Some v | None => pget (staged s) k end.
Proof.
  intros Hs Hf Hg Hn Hne Ha Hm Ht Hd. unfold activate. rewrite Hf.
  destruct (ctxEqb_spec b (actx s)) as [E|_]; [congruence|]. rewrite Hn, N.eqb_refl, Hg.
  unfold ensureAuto. rewrite Ha. rewrite Ha.
  set (ps := filter (fun kv => negb (has (fst kv) au)) m).
  assert (Hps : convertible B ps) by (apply typed_convertible; [exact Hs|apply typed_filter, Ht]).
  destruct (setStaged_ok B s ps Hps Hd) as (s2 & r & E & H1 & H2 & H3). rewrite E.
  pose proof (setStaged_frame B s ps) as F. rewrite E in F. cbn [fst] in F. destruct F as (_ & _ & _ & F4 & _).
  eexists. split; [reflexivity|]. cbn [autoU actx chg staged setChg setActx]. split; [exact F4|]. split; [reflexivity|].
  split; [reflexivity|]. split; [exact H1|]. intros k Hk. rewrite H3 by exact Hk.
  assert (El : lastIn k ps = if has k au then None else pget m k).
  { rewrite lastIn_noDup by (apply filter_noDup, Hm). apply pget_filter. }
  rewrite El. destruct (has k au); [reflexivity|]. destruct (pget m k) as [v|] eqn:Ev; [|reflexivity].
  destruct Hs as [_ Hs]. apply Hs, Ht, pget_in, Ev.
Qed.

(* ------------------------------------------------------------------ the invariant *)

Definition J (B : bdesc) (d : pmap) (k : N) (g : option N) (lst : N) (s : st) : Prop :=
  exists t m au,
    (stored s = [(0, [(t, m)])] /\ expiry s = never /\ dflt s = d /\ actx s = (t, 0) /\ 0 < t <= lst)
    /\ (aget (autoU s) (t, 0) = Some au /\ forall t', aget (autoU s) (t', 0) <> None -> t' <= lst)
    /\ (noDup (staged s) /\ (staged s <> [] -> chg s = true))
    /\ (noDup m /\ typed B m)
    /\ match g with
       | Some v => has k au = false /\ pget m k = Some v /\ valid B k v = true
                   /\ (pget (staged s) k = Some v \/ (pget (staged s) k = None /\ pget (fields s) k = Some v))
       | None => has k au = true
       end.

Lemma find_one (t now : N) (m : pmap) fuel s : stored s = [(0, [(t, m)])] -> t <= now ->
  findBest nullPred fuel s (now, 0) = Some (t, 0) /\ getBest nullPred fuel s (now, 0) = Some m.
Proof.
  intros E H. assert (F : findBest nullPred fuel s (now, 0) = Some (t, 0)).
  { unfold findBest, findName. rewrite E. cbn [snd fst sget N.eqb findTime lastOf rev app].
    destruct (N.leb_spec t now); [|lia]. rewrite orb_true_r. reflexivity. }
  split; [exact F|]. unfold getBest. rewrite F, E. cbn [sget N.eqb]. unfold byTime. cbn [find fst]. rewrite N.eqb_refl. reflexivity.
Qed.

Lemma find_two (t a now : N) (m m' : pmap) fuel s : stored s = [(0, [(t, m); (a, m')])] -> t < a <= now ->
  findBest nullPred fuel s (now, 0) = Some (a, 0) /\ getBest nullPred fuel s (now, 0) = Some m'.
Proof.
  intros E H. assert (F : findBest nullPred fuel s (now, 0) = Some (a, 0)).
  { unfold findBest, findName. rewrite E. cbn [snd fst sget N.eqb findTime lastOf rev app].
    destruct (N.leb_spec a now); [|lia]. rewrite orb_true_r. reflexivity. }
  split; [exact F|]. unfold getBest. rewrite F, E. cbn [sget N.eqb]. unfold byTime. cbn [find fst].
  destruct (N.eqb_spec t a); [lia|]. rewrite N.eqb_refl. reflexivity.
Qed.

Lemma purge_two (t a now : N) (m m' : pmap) s : stored s = [(0, [(t, m); (a, m')])] -> t < a < now -> expiry s = never ->
  stored (removeExpired s now) = [(0, [(a, m')])] /\ autoU (removeExpired s now) = adel (autoU s) (t, 0).
Proof.
  intros E H He. unfold removeExpired. rewrite E, He. cbn [purgeAll]. unfold purge. rewrite N.eqb_refl.
  assert (O : outdated now [(t, m); (a, m')] = 1%nat).
  { unfold outdated. cbn [from fst]. destruct (N.ltb_spec t now); [|lia]. destruct (N.ltb_spec a now); [|lia]. reflexivity. }
  rewrite O. cbn. split; reflexivity.
Qed.

Lemma addStored_auto B pred fuel s m c au : aget (autoU s) c = Some au -> autoU (addStored B pred fuel s m c) = autoU s.
Proof. intros H. unfold addStored, ensureAuto. rewrite H. reflexivity. Qed.

Lemma addStored_newest B pred fuel s m' t a m : stored s = [(0, [(t, m)])] -> t < a ->
  stored (addStored B pred fuel s m' (a, 0)) = [(0, [(t, m); (a, m')])].
Proof.
  intros E H. unfold addStored. destruct (ensureAuto_frame B pred fuel s (a, 0)) as (E1 & _). cbn [stored setStored snd fst].
  rewrite E1, E. cbn [sget N.eqb sput]. cbn [before from fst]. destruct (N.ltb_spec t a); [|lia]. reflexivity.
Qed.

Lemma ensureAuto_new B fuel s t a m au : stored s = [(0, [(t, m)])] -> t < a -> aget (autoU s) (a, 0) = None -> aget (autoU s) (t, 0) = Some au ->
  autoU (ensureAuto B nullPred fuel s (a, 0)) = aput (autoU s) (a, 0) au.
Proof.
  intros E H H1 H2. unfold ensureAuto. rewrite H1. cbn [autoU]. f_equal. unfold getBestAuto.
  destruct (find_one t a m fuel s E ltac:(lia)) as [-> _]. rewrite H2. reflexivity.
Qed.

Lemma J_set B d k g lst s fuel a b c ps : sane B -> has k (writ B) = true ->
  J B d k g lst s -> lst < a -> a < b -> b < c -> fair B k (USet a b c ps) ->
  J B d k (given B d k g (USet a b c ps)) c (runS B nullPred fuel s (uops (USet a b c ps))).
Proof.
  intros Hs Hk (t & m & au & (J1 & J2 & J3 & J4 & J5) & (J6 & J7) & (J8 & J9) & (J10 & J11) & Jg) Ha Hb Hc [Hcv Hval].
  unfold runS. cbn [uops fold_left stepS].
  (* set *)
  assert (Eset : exists s1, fst (set B nullPred fuel s a b ps (0, 0)) = s1
     /\ stored s1 = [(0, [(a, overlay B m ps)])] /\ expiry s1 = never /\ dflt s1 = d /\ actx s1 = (t, 0)
     /\ staged s1 = staged s /\ chg s1 = chg s /\ fields s1 = fields s
     /\ (exists au', aget (autoU s1) (a, 0) = Some au' /\ has k au' = has k au && match lastIn k ps with None => true | Some _ => false end)
     /\ (forall t', aget (autoU s1) (t', 0) <> None -> t' <= a)).
  { eexists. split; [reflexivity|]. unfold set. cbn [timed fst snd N.eqb].
    change (timed a (0, 0)) with (a, 0).
    destruct (find_one t a m fuel s J1 ltac:(lia)) as [F1 F2]. rewrite F2.
    assert (An : aget (autoU s) (a, 0) = None).
    { destruct (aget (autoU s) (a, 0)) eqn:E; [|reflexivity]. exfalso. specialize (J7 a). rewrite E in J7. specialize (J7 ltac:(discriminate)). lia. }
    pose proof (ensureAuto_new B fuel s t a m au J1 ltac:(lia) An J6) as EA.
    destruct (ensureAuto_frame B nullPred fuel s (a, 0)) as (Q1 & Q2 & Q3 & Q4 & Q5 & Q6 & Q7 & Q8).
    set (s1 := ensureAuto B nullPred fuel s (a, 0)) in *. rewrite EA. rewrite aget_aput, ctxEqb_refl.
    pose proof (setLoop_result B ps m au []) as HL. pose proof (setLoop_auto B k Hk ps m au [] Hcv) as HA.
    destruct (setLoop B ps m au []) as [[[m2 au2] ret] ok]. cbn [fst snd] in HA. destruct HL as [Hok Hm2].
    rewrite (convertible_ok B ps Hcv) in Hok. cbn [negb] in Hok. subst ok. cbn [fst]. rewrite (Hm2 eq_refl).
    set (s2 := setAuto s1 (aput (aput (autoU s) (a, 0) au) (a, 0) au2)).
    assert (As2 : aget (autoU s2) (a, 0) = Some au2) by (subst s2; cbn [autoU setAuto]; rewrite aget_aput, ctxEqb_refl; reflexivity).
    pose proof (addStored_auto B nullPred fuel s2 (overlay B m ps) (a, 0) au2 As2) as A1.
    pose proof (addStored_frame B nullPred fuel s2 (overlay B m ps) (a, 0)) as (P1 & P2 & P3 & P4 & P5 & P6 & P7).
    pose proof (addStored_newest B nullPred fuel s2 (overlay B m ps) t a m ltac:(cbn [s2 stored setAuto]; rewrite Q1; exact J1) ltac:(lia)) as A2.
    set (s3 := addStored B nullPred fuel s2 (overlay B m ps) (a, 0)) in *.
    cbn [s2 expiry dflt staged active fields actx chg setAuto] in P1, P2, P3, P4, P5, P6, P7.
    destruct (purge_two t a b m (overlay B m ps) s3 A2 ltac:(lia) ltac:(congruence)) as [U1 U2].
    destruct (removeExpired_frame s3 b) as (R1 & R2 & R3 & R4 & R5 & R6 & R7).
    split; [exact U1|]. split; [congruence|]. split; [congruence|]. split; [congruence|]. split; [congruence|]. split; [congruence|].
    split; [congruence|]. split.
    - exists au2. split; [|exact HA]. rewrite U2, aget_adel, A1, As2.
      destruct (ctxEqb_spec (t, 0) (a, 0)) as [E|_]; [injection E as ->; lia|reflexivity].
    - intros t' Ht'. rewrite U2, aget_adel in Ht'. destruct (ctxEqb (t, 0) (t', 0)); [congruence|]. rewrite A1 in Ht'.
      cbn [s2 autoU setAuto] in Ht'. rewrite !aget_aput in Ht'. destruct (ctxEqb_spec (a, 0) (t', 0)) as [E|_]; [injection E as ->; lia|].
      specialize (J7 t' Ht'). lia. }
  destruct Eset as (s1 & -> & S1 & S2 & S3 & S4 & S5 & S6 & S7 & (au' & S8 & S8') & S9).
  destruct (overlay_ok B Hs ps m J10 J11) as [O1 O2].
  destruct (find_one a c (overlay B m ps) fuel s1 S1 ltac:(lia)) as [G1 G2].
  destruct (activate_newer B nullPred fuel s1 c (0, 0) (a, 0) (overlay B m ps) au' Hs G1 G2
              ltac:(rewrite S4; reflexivity) ltac:(rewrite S4; intros E; injection E as ->; lia) S8 O1 O2 ltac:(rewrite S5; exact J8))
    as (s2 & EA & A1 & A2 & A3 & A4 & A5).
  pose proof (activate_frame B nullPred fuel s1 c (0, 0)) as F. rewrite EA in F. cbn [fst] in F. destruct F as (F1 & F2 & F3 & F4 & F5).
  rewrite EA. cbn [fst]. exists a, (overlay B m ps), au'.
  split; [split; [congruence|]; split; [congruence|]; split; [congruence|]; split; [congruence|lia]|].
  split; [split; [rewrite A1; exact S8|intros t'; rewrite A1; intros Ht'; specialize (S9 t' Ht'); lia]|].
  split; [split; [exact A4|intros _; exact A3]|]. split; [split; assumption|].
  pose proof (overlay_get B k Hk ps m Hcv) as Og. specialize (A5 k Hk). rewrite S5 in A5. rewrite F5, S7.
  cbn [given]. destruct (lastIn k ps) as [v|] eqn:El.
  - pose proof (Hcv k v (lastIn_in _ _ _ El) Hk) as Hv. destruct (conv B k v) as [v'|] eqn:Ev; [|contradiction].
    rewrite andb_false_r in S8'. rewrite S8', Og in A5. split; [exact S8'|]. split; [exact Og|].
    split; [exact (Hval v v' eq_refl Ev)|]. left. exact A5.
  - rewrite andb_true_r in S8'. destruct g as [w|].
    + destruct Jg as (K1 & K2 & K3 & K4). rewrite K1 in S8'. rewrite S8', Og, K2 in A5. split; [exact S8'|]. split; [congruence|]. split; [exact K3|].
      left. exact A5.
    + rewrite S8'. exact Jg.
Qed.

Lemma J_apply B d k g lst s : has k (writ B) = true -> J B d k g lst s -> J B d k g lst (applyChanged B s)
  /\ staged (applyChanged B s) = [].
Proof.
  intros Hk (t & m & au & (J1 & J2 & J3 & J4 & J5) & (J6 & J7) & (J8 & J9) & (J10 & J11) & Jg).
  unfold applyChanged. destruct (chg s) eqn:Ec.
  - unfold applyStaged. pose proof (applyLoop_get B (staged s) (fields s) [] [] k J8) as HG.
    destruct (applyLoop B (staged s) (fields s) [] []) as [[f ap] fw]. cbn [fst snd] in HG |- *. split; [|reflexivity].
    exists t, m, au. cbn [stored expiry dflt actx autoU staged chg fields].
    split; [auto|]. split; [auto|]. split; [split; [constructor|intros H; exfalso; apply H; reflexivity]|]. split; [auto|].
    destruct g as [v|]; [|exact Jg]. destruct Jg as (K1 & K2 & K3 & K4). split; [exact K1|]. split; [exact K2|]. split; [exact K3|].
    right. split; [reflexivity|]. destruct K4 as [K4|[K4 K5]]; rewrite K4 in HG.
    + rewrite Hk in HG. unfold okVal in HG. rewrite (J11 k v (pget_in _ _ _ K2)), K3 in HG. exact HG.
    + congruence.
  - destruct (staged s) as [|x r] eqn:Es; [|specialize (J9 ltac:(discriminate)); congruence].
    split; [|reflexivity]. exists t, m, au. rewrite Es. split; [auto|]. split; [auto|]. split; [split; [constructor|intros H; exfalso; apply H; reflexivity]|].
    split; [auto|exact Jg].
Qed.

Lemma J_stage B d k g lst s ps : has k (writ B) = true -> J B d k g lst s -> convertible B ps -> lastIn k ps = None ->
  J B d k g lst (fst (setStaged B s ps)).
Proof.
  intros Hk (t & m & au & (J1 & J2 & J3 & J4 & J5) & (J6 & J7) & (J8 & J9) & (J10 & J11) & Jg) Hc Hl.
  destruct (setStaged_ok B s ps Hc J8) as (s' & r & E & H1 & H2 & H3).
  pose proof (setStaged_frame B s ps) as F. rewrite E in F |- *. cbn [fst] in F |- *. destruct F as (F1 & F2 & F3 & F4 & F5 & F6 & F7).
  specialize (H3 k Hk). rewrite Hl in H3. exists t, m, au. rewrite F1, F2, F3, F4, F6, F7, H3.
  split; [auto|]. split; [auto|]. split; [auto|]. split; [auto|exact Jg].
Qed.

Lemma J_tag B d k g lst s fuel a b vals tr : J B d k g lst s -> exists s', autoUpdate B nullPred fuel s a b (mkT vals None tr) = Some s'
  /\ J B d k g lst s'.
Proof.
  intros (t & m & au & (J1 & J2 & J3 & J4 & J5) & (J6 & J7) & (J8 & J9) & (J10 & J11) & Jg).
  unfold autoUpdate. destruct (negb (relevant B (mkT vals None tr))).
  - eexists. split; [reflexivity|]. exists t, m, au.
    destruct (chg s && isEmpty (staged s)) eqn:E; cbn [setChg stored expiry dflt actx autoU staged chg fields];
      (split; [auto|]; split; [auto|]; split; [|split; [auto|exact Jg]]); split; auto.
    intros H. destruct (staged s); [contradiction|]. cbn [isEmpty] in E. rewrite andb_false_r in E. discriminate.
  - cbn [tagContext tCtx tVals]. rewrite J4, J6, J6. cbv zeta. rewrite ctxEqb_refl. cbn [negb].
    pose proof (tagLoop_misc B false (active s) au vals (staged s) false) as M. cbv zeta in M.
    assert (Sk : has k au = false -> pget (fst (tagLoop B vals false (active s) au (staged s) false)) k = pget (staged s) k).
    { intros H. apply tagLoop_skip. exact H. }
    destruct (tagLoop B vals false (active s) au (staged s) false) as [stg was]. cbn [fst snd] in M, Sk. destruct M as [M1 M2].
    eexists. split; [reflexivity|]. exists t, m, au.
    assert (Gk : match g with
       | Some v => has k au = false /\ pget m k = Some v /\ valid B k v = true
                   /\ (pget stg k = Some v \/ (pget stg k = None /\ pget (fields s) k = Some v))
       | None => has k au = true
       end).
    { destruct g as [v|]; [|exact Jg]. destruct Jg as (K1 & K2 & K3 & K4). rewrite (Sk K1). auto. }
    destruct was; cbn [negb andb orb].
    + cbn [setChg setStagedMap stored expiry dflt actx autoU staged chg fields]. split; [auto|]. split; [auto|]. split; [auto|]. split; [auto|exact Gk].
    + destruct (M2 eq_refl) as [_ Es]. destruct (isEmpty stg) eqn:Ee; cbn [setChg setStagedMap stored expiry dflt actx autoU staged chg fields].
      * split; [auto|]. split; [auto|]. split; [split; [auto|]|split; [auto|exact Gk]]. destruct stg; [contradiction|discriminate].
      * split; [auto|]. split; [auto|]. split; [split; [auto|]|split; [auto|exact Gk]]. rewrite Es. exact J9.
Qed.

Lemma J_reset B d k g lst s fuel a b c : sane B -> has k (writ B) = true ->
  J B d k g lst s -> lst < a -> a < b -> b < c -> noDup d -> typed B d -> (forall v, pget d k = Some v -> valid B k v = true) ->
  (g <> None -> pget d k <> None) ->
  J B d k (given B d k g (UReset a b c)) c (resetDefaults B nullPred fuel s a b c) /\ staged (resetDefaults B nullPred fuel s a b c) = [].
Proof.
  intros Hs Hk (t & m & au & (J1 & J2 & J3 & J4 & J5) & (J6 & J7) & (J8 & J9) & (J10 & J11) & Jg) Ha Hb Hc Hnd Htd Hvd Hgd.
  unfold resetDefaults. rewrite J3.
  assert (An : aget (autoU s) (a, 0) = None).
  { destruct (aget (autoU s) (a, 0)) eqn:E; [|reflexivity]. exfalso. specialize (J7 a). rewrite E in J7. specialize (J7 ltac:(discriminate)). lia. }
  pose proof (ensureAuto_new B fuel s t a m au J1 ltac:(lia) An J6) as EA.
  pose proof (addStored_newest B nullPred fuel s d t a m J1 ltac:(lia)) as A2.
  pose proof (addStored_frame B nullPred fuel s d (a, 0)) as (P1 & P2 & P3 & P4 & P5 & P6 & P7).
  assert (A1 : autoU (addStored B nullPred fuel s d (a, 0)) = aput (autoU s) (a, 0) au) by (unfold addStored; cbn [autoU setStored]; exact EA).
  set (s1 := addStored B nullPred fuel s d (a, 0)) in *.
  destruct (find_two t a b m d fuel s1 A2 ltac:(lia)) as [G1 G2].
  destruct (activate_newer B nullPred fuel s1 b (0, 0) (a, 0) d au Hs G1 G2
              ltac:(rewrite P6, J4; reflexivity) ltac:(rewrite P6, J4; intros E; injection E as ->; lia)
              ltac:(rewrite A1, aget_aput, ctxEqb_refl; reflexivity) Hnd Htd ltac:(rewrite P3; exact J8))
    as (s2 & EQ & B1 & B2 & B3 & B4 & B5).
  pose proof (activate_frame B nullPred fuel s1 b (0, 0)) as F. rewrite EQ in F |- *. cbn [fst] in F |- *. destruct F as (F1 & F2 & F3 & F4 & F5).
  unfold applyStaged. pose proof (applyLoop_get B (staged s2) (fields s2) [] [] k B4) as HG.
  destruct (applyLoop B (staged s2) (fields s2) [] []) as [[f ap] fw]. cbn [fst snd] in HG |- *.
  set (s3 := mkS (stored s2) (autoU s2) (dflt s2) [] (pputAll (active s2) f) f (actx s2) false (expiry s2)).
  destruct (purge_two t a c m d s3 ltac:(cbn [s3 stored]; congruence) ltac:(lia) ltac:(cbn [s3 expiry]; congruence)) as [U1 U2].
  destruct (removeExpired_frame s3 c) as (R1 & R2 & R3 & R4 & R5 & R6 & R7).
  cbn [s3 expiry dflt staged active fields actx chg autoU] in R1, R2, R3, R4, R5, R6, R7, U2. split; [|exact R3].
  exists a, d, au. rewrite R1, R2, R3, R5, R6, R7, U1, U2.
  split; [split; [reflexivity|]; split; [congruence|]; split; [congruence|]; split; [exact B2|lia]|].
  split.
  { split.
    - rewrite aget_adel, B1, A1, aget_aput, ctxEqb_refl. destruct (ctxEqb_spec (t, 0) (a, 0)) as [E|_]; [injection E as ->; lia|reflexivity].
    - intros t' Ht'. rewrite aget_adel in Ht'. destruct (ctxEqb (t, 0) (t', 0)); [congruence|]. rewrite B1, A1, aget_aput in Ht'.
      destruct (ctxEqb_spec (a, 0) (t', 0)) as [E|_]; [injection E as ->; lia|]. specialize (J7 t' Ht'). lia. }
  split; [split; [constructor|congruence]|]. split; [split; assumption|].
  cbn [given]. destruct g as [v|]; [|exact Jg]. destruct Jg as (K1 & K2 & K3 & K4).
  destruct (pget d k) as [w|] eqn:Ew; [|exfalso; apply Hgd; [discriminate|reflexivity]].
  split; [exact K1|]. split; [reflexivity|]. split; [apply Hvd; reflexivity|]. right. split; [reflexivity|].
  specialize (B5 k Hk). rewrite K1, Ew in B5. rewrite B5, Hk in HG. unfold okVal in HG.
  rewrite (Htd k w (pget_in _ _ _ Ew)), (Hvd w eq_refl) in HG. exact HG.
Qed.

(* ------------------------------------------------------------------ the start *)

Lemma J_init B fuel f a b c ps k s0 : sane B -> has k (writ B) = true -> noDup f -> typed B f ->
  0 < a -> a < b -> b < c -> fair B k (USet a b c ps) -> initBlock B nullPred fuel (blank f) a b c ps = Some s0 ->
  J B (dflt s0) k (given B [] k None (USet a b c ps)) c s0 /\ noDup (dflt s0) /\ typed B (dflt s0).
Proof.
  intros Hs Hk Hnf Htf H0 Hb Hc [Hcv Hval]. unfold initBlock, initSettings.
  set (sb := storeDefaults (blank f)).
  assert (Hd0 : noDup (pputAll [] f)) by (apply pputAll_noDup; constructor).
  assert (Htp : forall m add, typed B m -> typed B add -> typed B (pputAll m add)).
  { intros m add. unfold pputAll. revert m. induction add as [|[x y] add IH]; intros m Hm Ha; cbn [fold_left fst snd]; [exact Hm|].
    apply IH; [|intros k' v' Hi; apply Ha; right; exact Hi]. intros k' v' Hi. apply pput_in in Hi.
    destruct Hi as [E|Hi]; [injection E as -> ->; apply Ha; left; reflexivity|apply Hm, Hi]. }
  assert (Htd0 : typed B (pputAll [] f)) by (apply Htp; [intros x y []|exact Htf]).
  (* set *)
  assert (Eset : exists s1 r, set B nullPred fuel sb a b ps (0, 0) = (s1, Some r)
     /\ stored s1 = [(0, [(a, overlay B (pputAll [] f) ps)])] /\ expiry s1 = never /\ dflt s1 = pputAll [] f /\ actx s1 = (0, 0)
     /\ staged s1 = [] /\ fields s1 = f
     /\ (exists au', aget (autoU s1) (a, 0) = Some au' /\ has k au' = match lastIn k ps with None => true | Some _ => false end)
     /\ (forall t', aget (autoU s1) (t', 0) <> None -> t' <= a)).
  { unfold set. change (timed a (0, 0)) with (a, 0).
    change (getBest nullPred fuel sb (a, 0)) with (@None pmap). cbv iota. change (dflt sb) with (pputAll [] f).
    change (ensureAuto B nullPred fuel sb (a, 0)) with (setAuto sb [((a, 0), writ B)]).
    change (autoU (setAuto sb [((a, 0), writ B)])) with [((a, 0), writ B)]. cbn [aget]. rewrite ctxEqb_refl.
    pose proof (setLoop_result B ps (pputAll [] f) (writ B) []) as HL. pose proof (setLoop_auto B k Hk ps (pputAll [] f) (writ B) [] Hcv) as HA.
    destruct (setLoop B ps (pputAll [] f) (writ B) []) as [[[m2 au2] ret] ok]. cbn [fst snd] in HA. destruct HL as [Hok Hm2].
    rewrite (convertible_ok B ps Hcv) in Hok. cbn [negb] in Hok. subst ok. rewrite (Hm2 eq_refl). rewrite Hk in HA. cbn [andb] in HA.
    cbn [aput]. rewrite ?ctxEqb_refl. match goal with |- context [addStored B nullPred fuel ?x _ _] => set (s2 := x) end.
    assert (EA : addStored B nullPred fuel s2 (overlay B (pputAll [] f) ps) (a, 0) = setStored s2 [(0, [(a, overlay B (pputAll [] f) ps)])]).
    { unfold addStored, ensureAuto. cbn [s2 autoU setAuto aget]. rewrite ctxEqb_refl. reflexivity. }
    rewrite EA. unfold removeExpired. cbn [setStored s2 setAuto sb storeDefaults setDflt blank expiry stored autoU purgeAll]. unfold purge. rewrite N.eqb_refl.
    assert (O : outdated b [(a, overlay B (pputAll [] f) ps)] = 0%nat).
    { unfold outdated. cbn [from fst]. destruct (N.ltb_spec a b); [reflexivity|lia]. }
    rewrite O. eexists _, ret. split; [reflexivity|]. cbn [skipn firstn map fold_left stored expiry dflt actx staged fields autoU setAuto setStored].
    split; [reflexivity|]. split; [reflexivity|]. split; [reflexivity|]. split; [reflexivity|]. split; [reflexivity|]. split; [reflexivity|].
    split.
    - exists au2. cbn [aget]. rewrite ctxEqb_refl. split; [reflexivity|exact HA].
    - intros t' Ht'. cbn [aget] in Ht'. destruct (ctxEqb_spec (a, 0) (t', 0)) as [E|_]; [injection E as ->; lia|congruence]. }
  destruct Eset as (s1 & r & -> & S1 & S2 & S3 & S4 & S5 & S6 & (au' & S7 & S7') & S8).
  destruct (overlay_ok B Hs ps (pputAll [] f) Hd0 Htd0) as [O1 O2]. set (m := overlay B (pputAll [] f) ps) in *.
  destruct (find_one a c m fuel s1 S1 ltac:(lia)) as [G1 G2].
  destruct (activate_newer B nullPred fuel s1 c (0, 0) (a, 0) m au' Hs G1 G2
              ltac:(rewrite S4; reflexivity) ltac:(rewrite S4; intros E; injection E as E; lia) S7 O1 O2 ltac:(rewrite S5; constructor))
    as (s2 & EA & A1 & A2 & A3 & A4 & A5).
  pose proof (activate_frame B nullPred fuel s1 c (0, 0)) as F. rewrite EA in F. cbn [fst] in F. destruct F as (F1 & F2 & F3 & F4 & F5).
  rewrite EA. unfold applyStaged.
  pose proof (applyLoop_get B (staged s2) (fields s2) [] []) as HG.
  pose proof (applyLoop_noDup B (staged s2) (fields s2) [] [] ltac:(rewrite F5, S6; exact Hnf)) as HN.
  pose proof (applyLoop_typed B (staged s2) (fields s2) [] [] ltac:(rewrite F5, S6; exact Htf)) as HT.
  pose proof (applyLoop_fw B (staged s2) (fields s2) [] []) as HF.
  pose proof (applyLoop_fw_noDup B (staged s2) (fields s2) [] [] ltac:(constructor)) as HFN.
  destruct (applyLoop B (staged s2) (fields s2) [] []) as [[f2 ap] fw]. cbn [fst snd] in HG, HN, HT, HF, HFN.
  set (s3 := mkS (stored s2) (autoU s2) (dflt s2) [] (pputAll (active s2) f2) f2 (actx s2) false (expiry s2)).
  assert (Hfw : forall x y, pget fw x = Some y -> pget (staged s2) x = Some y /\ has x (writ B) = true).
  { intros x y E. apply HF in E. destruct E as [E|[E Ex]]; [discriminate|]. split; [|exact Ex]. apply in_pget; assumption. }
  assert (Hst : forall x y, pget (staged s2) x = Some y -> has x (writ B) = true -> holds B x y = true).
  { intros x y E Ex. rewrite (A5 x Ex), S5 in E. destruct (has x au'); [discriminate|].
    destruct (pget m x) as [w|] eqn:Ew; [|discriminate]. injection E as <-. apply O2, pget_in, Ew. }
  assert (Hcfw : convertible B fw).
  { intros x y Hi Hx. apply in_pget in Hi; [|exact HFN]. apply Hfw in Hi. destruct Hi as [Hi _]. destruct Hs as [_ Hs].
    rewrite (Hs x y (Hst x y Hi Hx)). discriminate. }
  assert (E3 : exists s4 r4, (if isEmpty fw then (s3, Some []) else setStaged B s3 fw) = (s4, Some r4)
     /\ stored s4 = stored s3 /\ expiry s4 = expiry s3 /\ dflt s4 = dflt s3 /\ autoU s4 = autoU s3 /\ fields s4 = fields s3 /\ actx s4 = actx s3
     /\ noDup (staged s4) /\ (staged s4 <> [] -> chg s4 = true) /\ (pget (staged s4) k = match pget fw k with Some v => Some v | None => None end)).
  { destruct fw as [|x fw'] eqn:Efw; cbn [isEmpty].
    - exists s3, []. cbn [pget s3 staged]. repeat (split; [reflexivity|]). split; [constructor|]. split; [congruence|reflexivity].
    - rewrite <- Efw in *. destruct (setStaged_ok B s3 fw Hcfw ltac:(constructor)) as (s4 & r4 & E4 & Q1 & Q2 & Q3).
      pose proof (setStaged_frame B s3 fw) as Fr. rewrite E4 in Fr. cbn [fst] in Fr. destruct Fr as (R1 & R2 & R3 & R4 & R5 & R6 & R7).
      exists s4, r4. split; [exact E4|]. repeat (split; [assumption|]). specialize (Q3 k Hk). rewrite lastIn_noDup in Q3 by exact HFN.
      rewrite Q3. cbn [s3 staged pget]. destruct (pget fw k) as [v|] eqn:Ev; [|reflexivity].
      apply Hfw in Ev. destruct Ev as [Ev _]. destruct Hs as [_ Hs]. exact (Hs k v (Hst k v Ev Hk)). }
  destruct E3 as (s4 & r4 & -> & T1 & T2 & T3 & T4 & T5 & T6 & T7 & T8 & T9).
  intros E. injection E as <-. cbn [s3 stored expiry dflt autoU fields actx] in T1, T2, T3, T4, T5, T6.
  assert (Dd : dflt (storeDefaults s4) = pputAll (pputAll [] f) f2) by (cbn [storeDefaults setDflt dflt]; rewrite T3, F3, S3, T5; reflexivity).
  rewrite Dd. split; [|split; [apply pputAll_noDup; exact Hd0|apply Htp; assumption]].
  exists a, m, au'. cbn [storeDefaults setDflt stored expiry dflt actx autoU staged chg fields].
  split; [split; [congruence|]; split; [congruence|]; split; [exact Dd|]; split; [congruence|lia]|].
  split; [split; [rewrite T4, A1; exact S7|intros t' Ht'; rewrite T4, A1 in Ht'; specialize (S8 t' Ht'); lia]|].
  split; [split; assumption|]. split; [split; assumption|].
  cbn [given]. specialize (A5 k Hk). rewrite S5 in A5. pose proof (overlay_get B k Hk ps (pputAll [] f) Hcv) as Og. fold m in Og.
  destruct (lastIn k ps) as [v|] eqn:El; [|exact S7'].
  pose proof (Hcv k v (lastIn_in _ _ _ El) Hk) as Hv. destruct (conv B k v) as [v'|] eqn:Ev; [|contradiction].
  rewrite S7', Og in A5. split; [exact S7'|]. split; [exact Og|]. pose proof (Hval v v' eq_refl Ev) as Hvv. split; [exact Hvv|].
  assert (Ff : pget (fields s4) k = Some v').
  { rewrite T5, HG by exact A4. rewrite A5, Hk. unfold okVal. rewrite (O2 k v' (pget_in _ _ _ Og)), Hvv. reflexivity. }
  rewrite T9. destruct (pget fw k) as [w|] eqn:Ew; [|right; split; [reflexivity|exact Ff]].
  apply Hfw in Ew. destruct Ew as [Ew _]. left. congruence.
Qed.

(* ------------------------------------------------------------------ histories *)

Lemma runS_app B pred fuel s a b : runS B pred fuel s (a ++ b) = runS B pred fuel (runS B pred fuel s a) b.
Proof. unfold runS. apply fold_left_app. Qed.

Lemma strict_app now a b : strictClock now (a ++ b) -> strictClock now a /\ strictClock (last a now) b.
Proof.
  revert now. induction a as [|x a IH]; intros now; cbn [app strictClock]; [auto|]. intros [H1 H2].
  destruct (IH x H2) as [I1 I2]. split; [auto|]. destruct a as [|y a]; [exact I2|].
  change (last (x :: y :: a) now) with (last (y :: a) now). rewrite (last_default (y :: a) now x) by discriminate. exact I2.
Qed.

Lemma J_later B d k g l l' s : l <= l' -> J B d k g l s -> J B d k g l' s.
Proof.
  intros H (t & m & au & (J1 & J2 & J3 & J4 & J5) & (J6 & J7) & J8).
  exists t, m, au. split; [repeat (split; [assumption|]); lia|]. split; [split; [exact J6|intros t' Ht'; specialize (J7 t' Ht'); lia]|exact J8].
Qed.

Lemma J_run B d k fuel : sane B -> has k (writ B) = true -> noDup d -> typed B d -> (exists v, pget d k = Some v /\ valid B k v = true) ->
  forall us g lst s, J B d k g lst s -> strictClock lst (ureadings us) -> Forall (fair B k) us ->
  J B d k (lastGiven B d k g us) (last (ureadings us) lst) (runS B nullPred fuel s (uprog us)).
Proof.
  intros Hs Hk Hnd Htd (dv & Hdv & Hvv). induction us as [|u us IH]; intros g lst s Hj Hc Hf; [exact Hj|].
  pose proof (Forall_inv Hf) as Hf1. pose proof (Forall_inv_tail Hf) as Hf2.
  unfold ureadings in Hc |- *. cbn [flat_map] in Hc |- *. fold (ureadings us) in Hc |- *. apply strict_app in Hc. destruct Hc as [Hc1 Hc2].
  unfold uprog, lastGiven. cbn [flat_map fold_left]. fold (uprog us). rewrite runS_app, last_app.
  fold (lastGiven B d k (given B d k g u) us). apply IH; [|exact Hc2|exact Hf2].
  destruct u as [a b c ps|a b vals tr|ps|a b c|]; cbn [uops flat_map readings app last strictClock] in Hc1 |- *.
  - apply J_set with (lst := lst); auto; lia.
  - unfold runS. cbn [fold_left stepS]. destruct (J_tag B d k g lst s fuel a b vals tr Hj) as (s' & -> & Hj').
    apply (J_later B d k _ lst); [lia|exact Hj'].
  - unfold runS. cbn [fold_left stepS]. cbn [fair] in Hf1. apply J_stage; tauto.
  - unfold runS. cbn [fold_left stepS]. apply J_reset with (lst := lst); auto; try lia.
    + intros v E. congruence.
    + intros _. congruence.
  - unfold runS. cbn [fold_left stepS]. apply J_apply; assumption.
Qed.
