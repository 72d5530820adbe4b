(** Context switches, application, the mirror of the fields, removal and expiry of contexts, the two threads. *)
From Coq Require Import List NArith Arith Lia Bool Sorting.Sorted.
From Coq Require Import ZifyBool ZifyNat ZifyN.
From Verif Require Import SettModel SettSpec SettProofs SettHistProofs SettRunProofs.
Import ListNotations.
Local Open Scope N_scope.

(* ------------------------------------------------------------------ lookups always find something *)

Lemma findTime_in v t t' : findTime v t = Some t' -> In t' (map fst v).
Proof.
  unfold findTime. destruct (lastOf v) as [b|] eqn:El; [|discriminate]. apply lastOf_in in El. destruct El as [p ->].
  assert (Hb : In (fst b) (map fst (p ++ [b]))) by (apply in_map, in_or_app; right; left; reflexivity).
  destruct ((t =? 0) || (fst b <=? t)); [intros E; injection E as <-; exact Hb|].
  destruct (from t (p ++ [b])) as [|e r] eqn:Ef; [intros E; injection E as <-; exact Hb|].
  destruct (fst e =? t).
  - intros E. injection E as <-. apply in_map. rewrite <- (before_from t (p ++ [b])), Ef. apply in_or_app. right. left. reflexivity.
  - destruct (lastOf (before t (p ++ [b]))) as [q|] eqn:Eq; [|discriminate]. intros E. injection E as <-.
    apply lastOf_in in Eq. destruct Eq as [p' Eq]. apply in_map. rewrite <- (before_from t (p ++ [b])), Eq. apply in_or_app. left.
    apply in_or_app. right. left. reflexivity.
Qed.

Lemma byTime_some v t : In t (map fst v) -> exists m, byTime v t = Some m /\ In (t, m) v.
Proof.
  unfold byTime. induction v as [|[x y] v IH]; cbn [map fst In find snd]; [contradiction|]. intros [->|H].
  - rewrite N.eqb_refl. exists y. split; [reflexivity|left; reflexivity].
  - destruct (N.eqb_spec x t) as [->|]; [exists y; split; [reflexivity|left; reflexivity]|].
    destruct (IH H) as (m & E & Hi). exists m. auto.
Qed.

Lemma getBest_some pred fuel s c b : findBest pred fuel s c = Some b -> exists m, getBest pred fuel s c = Some m.
Proof.
  unfold getBest. intros E. rewrite E. unfold findBest in E. destruct (findName pred fuel (stored s) (snd c)) as [n|]; [|discriminate].
  destruct (sget (stored s) n) as [v|] eqn:Ev; [|discriminate]. destruct (findTime v (fst c)) as [t|] eqn:Et; [|discriminate].
  injection E as <-. rewrite Ev. apply findTime_in in Et. destruct (byTime_some v t Et) as (m & Em & _). exists m. exact Em.
Qed.

(* ------------------------------------------------------------------ the mirror *)

Lemma applyLoop_keys B : forall ps f ap fw k, pget f k <> None -> pget (fst (fst (applyLoop B ps f ap fw))) k <> None.
Proof.
  induction ps as [|[x y] ps IH]; intros f ap fw k H; cbn [applyLoop]; [exact H|].
  destruct (has x (writ B)); [destruct (okVal B x y)|]; apply IH; auto. rewrite pget_pput. destruct (x =? k); [discriminate|exact H].
Qed.

Lemma mirror_apply B s : mirror s -> mirror (fst (fst (applyStaged B s))) /\
  forall k v, pget (fields (fst (fst (applyStaged B s)))) k = Some v -> pget (active (fst (fst (applyStaged B s)))) k = Some v.
Proof.
  intros [M1 M2]. unfold applyStaged. pose proof (applyLoop_noDup B (staged s) (fields s) [] [] M1) as HN.
  pose proof (applyLoop_keys B (staged s) (fields s) [] []) as HK.
  destruct (applyLoop B (staged s) (fields s) [] []) as [[f ap] fw]. cbn [fst] in HN, HK |- *. unfold mirror. cbn [fields active]. split.
  - split; [exact HN|]. intros k v. rewrite pget_pputAll by exact HN. destruct (pget f k) eqn:E; [auto|]. intros H. exfalso. apply (HK k); [|exact E].
    rewrite (M2 k v H). discriminate.
  - intros k v H. rewrite pget_pputAll by exact HN. rewrite H. reflexivity.
Qed.

Lemma mirror_frame s s' : active s' = active s -> fields s' = fields s -> mirror s -> mirror s'.
Proof. unfold mirror. intros -> ->. auto. Qed.

Lemma mirror_step B pred fuel s o : mirror s -> mirror (stepS B pred fuel s o).
Proof.
  intros H. destruct o as [a b ps c|a c|a b t| |ps|a b d|]; cbn [stepS].
  - apply (mirror_frame s); [| |exact H]; unfold set;
      destruct (ensureAuto_frame B pred fuel s (timed a c)) as (_ & _ & _ & _ & Q5 & Q6 & _);
      destruct (setLoop B ps _ _ []) as [[[m au] ret] [|]]; cbn [fst]; try exact Q5; try exact Q6;
      match goal with |- context [addStored B pred fuel ?x ?y ?z] => pose proof (addStored_frame B pred fuel x y z) as (_ & _ & _ & P4 & P5 & _);
        destruct (removeExpired_frame (addStored B pred fuel x y z) b) as (_ & _ & _ & R4 & R5 & _) end;
      cbn [active fields setAuto] in P4, P5; congruence.
  - destruct (activate_frame B pred fuel s a c) as (_ & _ & _ & F4 & F5). apply (mirror_frame s); assumption.
  - destruct (autoUpdate B pred fuel s a b t) as [s'|] eqn:E; [|exact H].
    destruct (autoUpdate_frame B pred fuel s a b t s' E) as (_ & _ & _ & F4 & F5). apply (mirror_frame s); assumption.
  - unfold applyChanged. destruct (chg s); [|exact H]. apply mirror_apply, H.
  - destruct (setStaged_frame B s ps) as (_ & _ & _ & _ & F4 & F5 & _). apply (mirror_frame s); assumption.
  - unfold resetDefaults.
    pose proof (addStored_frame B pred fuel s (dflt s) (a, 0)) as (_ & _ & _ & P4 & P5 & _).
    destruct (activate_frame B pred fuel (addStored B pred fuel s (dflt s) (a, 0)) b (0, 0)) as (_ & _ & _ & F4 & F5).
    set (s2 := fst (activate B pred fuel (addStored B pred fuel s (dflt s) (a, 0)) b (0, 0))) in *.
    assert (M2 : mirror s2) by (apply (mirror_frame s); [congruence|congruence|exact H]).
    pose proof (mirror_apply B s2 M2) as [M3 _]. destruct (applyStaged B s2) as [[s3 x] y]. cbn [fst] in M3.
    destruct (removeExpired_frame s3 d) as (_ & _ & _ & R4 & R5 & _). apply (mirror_frame s3); assumption.
  - apply (mirror_frame s); [reflexivity|reflexivity|exact H].
Qed.

Lemma mirror_run B pred fuel : forall os s, mirror s -> mirror (runS B pred fuel s os).
Proof. unfold runS. induction os as [|o os IH]; intros s H; cbn [fold_left]; [exact H|]. apply IH, mirror_step, H. Qed.

Lemma mirror_init B pred fuel f a b c ps s0 : noDup f -> initBlock B pred fuel (blank f) a b c ps = Some s0 -> mirror s0.
Proof.
  intros Hn. unfold initBlock, initSettings.
  assert (M0 : mirror (storeDefaults (blank f))) by (split; [exact Hn|intros k v H; discriminate]).
  pose proof (mirror_step B pred fuel _ (OSet a b ps (0, 0)) M0) as M1. cbn [stepS] in M1.
  destruct (set B pred fuel (storeDefaults (blank f)) a b ps (0, 0)) as [s1 [r|]]; [|discriminate]. cbn [fst] in M1.
  pose proof (mirror_step B pred fuel s1 (OActivate c (0, 0)) M1) as M2. cbn [stepS] in M2.
  destruct (activate B pred fuel s1 c (0, 0)) as [s2 [[x|]|]]; try discriminate. cbn [fst] in M2.
  pose proof (mirror_apply B s2 M2) as [M3 _]. destruct (applyStaged B s2) as [[s3 ap] fw]. cbn [fst] in M3.
  destruct (isEmpty fw).
  - intros E. injection E as <-. apply (mirror_frame s3); [reflexivity|reflexivity|exact M3].
  - pose proof (setStaged_frame B s3 fw) as (_ & _ & _ & _ & F4 & F5 & _). destruct (setStaged B s3 fw) as [s4 [r4|]]; [|discriminate].
    cbn [fst] in F4, F5. intros E. injection E as <-. apply (mirror_frame s3); assumption.
Qed.

(* ------------------------------------------------------------------ application *)

Lemma applyLoop_out B : forall ps f ap fw k, noDup ps -> let r := applyLoop B ps f ap fw in
  pget (snd (fst r)) k = match pget ps k with Some v => if has k (writ B) && okVal B k v then Some v else pget ap k | None => pget ap k end
  /\ pget (snd r) k = match pget ps k with Some v => if has k (writ B) && fwdTag B k then Some v else pget fw k | None => pget fw k end.
Proof.
  unfold noDup. induction ps as [|[x y] ps IH]; intros f ap fw k Hn; [cbn; auto|]. cbn [map fst] in Hn.
  apply NoDup_cons_iff in Hn. destruct Hn as [Hn1 Hn2]. cbn [applyLoop pget].
  assert (Hx : x = k -> pget ps k = None) by (intros ->; apply pget_notin, Hn1).
  destruct (has x (writ B)) eqn:Ex; [destruct (okVal B x y) eqn:Eo; destruct (fwdTag B x) eqn:Ef|];
    (match goal with |- context [applyLoop B ps ?f' ?ap' ?fw'] => specialize (IH f' ap' fw' k Hn2) end); cbv zeta in IH |- *;
    destruct IH as [I1 I2]; rewrite I1, I2;
    destruct (N.eqb_spec x k) as [->|Hne]; rewrite ?(Hx eq_refl), ?pget_pput, ?N.eqb_refl, ?Ex, ?Eo, ?Ef; cbn [andb];
    try (destruct (N.eqb_spec x k); [congruence|]); auto.
Qed.

(* ------------------------------------------------------------------ switching *)

Lemma pinsAll_noDup add : forall m, noDup m -> noDup (pinsAll m add).
Proof.
  unfold pinsAll, noDup. induction add as [|[x y] add IH]; intros m H; cbn [fold_left fst snd]; [exact H|]. apply IH.
  unfold pins. destruct (pget m x) eqn:E; [exact H|]. rewrite map_app. cbn [map fst].
  assert (G : forall (l : list N) (z : N), NoDup l -> ~ In z l -> NoDup (l ++ [z])).
  { clear. induction l as [|a l IH]; intros z Hn Hz; cbn [app]; [constructor; [intros []|constructor]|].
    apply NoDup_cons_iff in Hn. destruct Hn as [H1 H2]. constructor; [|apply IH; [exact H2|intros H; apply Hz; right; exact H]].
    intros Hi. apply in_app_or in Hi. destruct Hi as [Hi|[ -> | [] ]]; [contradiction|]. apply Hz. left. reflexivity. }
  apply G; [exact H|]. intros Hi. apply pget_key in Hi. destruct Hi as [v Hv]. congruence.
Qed.

Lemma activate_other B pred fuel s now c b : activate B pred fuel s now c = (fst (activate B pred fuel s now c), Some (Some b)) ->
  snd b <> snd (actx s) -> exists m, getStored pred fuel s now c = Some m
  /\ staged (fst (activate B pred fuel s now c)) = pinsAll (staged s) m /\ chg (fst (activate B pred fuel s now c)) = true
  /\ actx (fst (activate B pred fuel s now c)) = b.
Proof.
  unfold activate, getStored. destruct (findBest pred fuel s (timed now c)) as [b'|] eqn:Ef; [|cbn; intros E; discriminate].
  destruct (getBest_some pred fuel s (timed now c) b' Ef) as [m Hm]. rewrite Hm.
  destruct (ctxEqb_spec b' (actx s)) as [->|Hne].
  { cbn. intros E. injection E as <-. congruence. }
  destruct (N.eqb_spec (snd b') (snd (actx s))) as [En|En].
  - destruct (setStaged B (ensureAuto B pred fuel s b') _) as [s2 [r|]]; cbn; intros E; [injection E as <-; congruence|discriminate].
  - cbn. intros E _. injection E as <-. exists m. auto.
Qed.

(* ------------------------------------------------------------------ the result of an activation, names *)

Lemma activate_active B pred fuel s now c s' b : activate B pred fuel s now c = (s', Some (Some b)) -> actx s' = b.
Proof.
  unfold activate. destruct (findBest pred fuel s (timed now c)) as [b'|] eqn:Ef; [|intros E; discriminate].
  destruct (getBest_some pred fuel s (timed now c) b' Ef) as [m Hm]. rewrite Hm.
  destruct (ctxEqb_spec b' (actx s)) as [->|Hne]; [intros E; injection E as <- <-; reflexivity|].
  destruct (N.eqb_spec (snd b') (snd (actx s))) as [En|En].
  - destruct (setStaged B (ensureAuto B pred fuel s b') _) as [s2 [r|]]; [|intros E; discriminate]. intros E. injection E as <- <-. reflexivity.
  - intros E. injection E as <- <-. reflexivity.
Qed.

Lemma activate_none B pred fuel s now c s' : activate B pred fuel s now c = (s', Some None) ->
  s' = s /\ getStored pred fuel s now c = None.
Proof.
  unfold activate, getStored. destruct (findBest pred fuel s (timed now c)) as [b'|] eqn:Ef.
  - destruct (getBest_some pred fuel s (timed now c) b' Ef) as [m Hm]. rewrite Hm.
    destruct (ctxEqb b' (actx s)); [intros E; discriminate|]. destruct (snd b' =? snd (actx s)); [|intros E; discriminate].
    destruct (setStaged B (ensureAuto B pred fuel s b') _) as [s2 [r|]]; intros E; discriminate.
  - intros E. injection E as <-. split; [reflexivity|]. unfold getBest. rewrite Ef. reflexivity.
Qed.

Lemma tryNames_spec pred names search a :
  match tryNames pred names search a with
  | Some (Some n) => exists p r, names = p ++ n :: r /\ pred n search a = Some true /\ forall x, In x p -> pred x search a = Some false
  | Some None => exists p n r, names = p ++ n :: r /\ pred n search a = None /\ forall x, In x p -> pred x search a = Some false
  | None => forall x, In x names -> pred x search a = Some false
  end.
Proof.
  induction names as [|n names IH]; cbn [tryNames]; [intros x []|]. destruct (pred n search a) as [[|]|] eqn:E.
  - exists [], names. split; [reflexivity|]. split; [exact E|intros x []].
  - destruct (tryNames pred names search a) as [[n'|]|].
    + destruct IH as (p & r & -> & H1 & H2). exists (n :: p), r. split; [reflexivity|]. split; [exact H1|]. intros x [ <- | Hx ]; auto.
    + destruct IH as (p & n' & r & -> & H1 & H2). exists (n :: p), n', r. split; [reflexivity|]. split; [exact H1|]. intros x [ <- | Hx ]; auto.
    + intros x [ <- | Hx ]; auto.
  - exists [], n, names. split; [reflexivity|]. split; [exact E|intros x []].
Qed.

Lemma attempts_spec pred search names : forall f a n, attempts pred f names search a = Some n ->
  exists a' p r, a <= a' /\ names = p ++ n :: r /\ pred n search a' = Some true /\ (forall x, In x p -> pred x search a' = Some false)
    /\ forall i x, a <= i < a' -> In x names -> pred x search i = Some false.
Proof.
  induction f as [|f IH]; intros a n; cbn [attempts]; [discriminate|]. pose proof (tryNames_spec pred names search a) as H.
  destruct (tryNames pred names search a) as [[n'|]|]; [|discriminate|].
  - intros E. injection E as ->. destruct H as (p & r & H1 & H2 & H3). exists a, p, r. split; [lia|]. split; [exact H1|]. split; [exact H2|].
    split; [exact H3|]. intros i x Hi. lia.
  - intros E. destruct (IH _ _ E) as (a' & p & r & G1 & G2 & G3 & G4 & G5). exists a', p, r. split; [lia|]. split; [exact G2|]. split; [exact G3|].
    split; [exact G4|]. intros i x Hi Hx. destruct (N.eq_dec i a) as [->|]; [apply H, Hx|apply G5; [lia|exact Hx]].
Qed.

(* ------------------------------------------------------------------ removal of a context *)

Lemma sget_sdel l n n' : sget (sdel l n) n' = if n =? n' then None else sget l n'.
Proof.
  unfold sdel. induction l as [|[a b] l IH]; cbn [filter fst sget]; [destruct (n =? n'); reflexivity|].
  destruct (N.eqb_spec a n) as [->|Ha]; cbn [negb sget].
  - rewrite IH. destruct (n =? n'); reflexivity.
  - rewrite IH. destruct (N.eqb_spec a n') as [->|]; [|reflexivity]. destruct (N.eqb_spec n n'); [congruence|reflexivity].
Qed.

Lemma eraseTime_spec v t : StronglySorted lt1 v ->
  match eraseTime v t with
  | Some v' => In t (map fst v) /\ forall e, In e v' <-> In e v /\ fst e <> t
  | None => ~ In t (map fst v)
  end.
Proof.
  induction v as [|x v IH]; intros Hs; cbn [eraseTime map In]; [auto|]. apply StronglySorted_inv in Hs. destruct Hs as [Hs Hx].
  specialize (IH Hs). rewrite Forall_forall in Hx. destruct (N.eqb_spec (fst x) t) as [Ex|Ex].
  - split; [auto|]. intros e. split; [intros He; split; [auto|]|intros [[ <- | He ] Hn]; [congruence|exact He]].
    specialize (Hx e He). unfold lt1 in Hx. lia.
  - destruct (eraseTime v t) as [v'|].
    + destruct IH as [I1 I2]. split; [auto|]. intros e. cbn [In]. rewrite I2. split; [intros [ <- | [] ]; auto|intros [[ <- | ] ]; auto].
    + intros [H|H]; [congruence|contradiction].
Qed.

(* ------------------------------------------------------------------ expiry *)

Lemma vec_expiry s now n : StronglySorted lt1 (vecOf s n) -> expiry s <> never ->
  forall e, In e (vecOf (removeExpired s now) n) <->
    keep now (filter (fun x => negb (expired (expiry s) now x)) (vecOf s n)) e.
Proof.
  intros Hs He e. unfold vecOf, removeExpired in *. pose proof (sget_purgeAll (expiry s) now (stored s) (autoU s) n) as H.
  destruct (purgeAll (expiry s) now (stored s) (autoU s)) as [l au]. cbn [stored setAuto setStored fst] in *. rewrite H.
  destruct (sget (stored s) n) as [v|]; cbn [option_map].
  2:{ cbn [filter]. split; [intros []|intros [[] _]]. }
  unfold purge. destruct (N.eqb_spec (expiry s) never); [contradiction|].
  set (w := filter (fun x => negb (expired (expiry s) now x)) v).
  assert (Hw : StronglySorted lt1 w).
  { subst w. clear -Hs. induction v as [|x v IH]; cbn [filter]; [constructor|]. apply StronglySorted_inv in Hs. destruct Hs as [Hs Hx].
    destruct (negb _); [|auto]. constructor; [auto|]. rewrite Forall_forall in *. intros y Hy. apply filter_In in Hy. apply Hx, Hy. }
  destruct w as [|x w].
  - cbn [fst]. split; [intros []|intros [[] _]].
  - cbn [fst]. apply purge_keep; [exact Hw|discriminate].
Qed.

(* ------------------------------------------------------------------ two threads *)

Definition K (B : bdesc) (k : N) (g : option N) (a : astate) : Prop :=
  noDup (staged (fst a)) /\ snd a <= 4
  /\ (snd a <= 1 -> staged (fst a) <> [] -> chg (fst a) = true) /\ (3 <= snd a -> staged (fst a) = [])
  /\ match g with
     | Some v => holds B k v = true /\ valid B k v = true
         /\ (pget (staged (fst a)) k = Some v \/ pget (staged (fst a)) k = None)
         /\ (pget (staged (fst a)) k = Some v /\ snd a <= 1 \/ pget (fields (fst a)) k = Some v)
         /\ (pget (staged (fst a)) k = None -> pget (fields (fst a)) k = Some v)
     | None => True
     end.

Lemma K_step B k g a x a' : sane B -> has k (writ B) = true -> K B k g a ->
  (match x with AStage ps => snd a <= 1 /\ convertible B ps /\ (forall v v', lastIn k ps = Some v -> conv B k v = Some v' -> valid B k v' = true) | _ => True end) ->
  arun1 B a x = Some a' -> K B k (stagedStep B k g x) a'.
Proof.
  intros Hs Hk (K1 & K2 & K3 & K4 & K5) Hx. destruct a as [s pc]. cbn [fst snd] in *. destruct x as [ps| | | | |]; cbn [arun1 stagedStep].
  - destruct Hx as (X1 & X2 & X3). destruct (setStaged_ok B s ps X2 K1) as (s' & r & Es & H1 & H2 & H3).
    pose proof (setStaged_frame B s ps) as F. rewrite Es in F |- *. cbn [fst] in F. intros E. injection E as <-. specialize (H3 k Hk).
    assert (Ff : fields s' = fields s) by apply F.
    split; [exact H1|]. split; [cbn [snd]; lia|]. split; [intros _; exact H2|]. split; [cbn [snd]; lia|]. cbn [fst snd].
    destruct (lastIn k ps) as [v|] eqn:El.
    + pose proof (X2 k v (lastIn_in _ _ _ El) Hk) as Hv. destruct (conv B k v) as [v'|] eqn:Ev; [|contradiction].
      split; [destruct Hs as [Hs _]; eapply Hs, Ev|]. split; [exact (X3 v v' eq_refl Ev)|]. split; [auto|]. split; [auto|]. congruence.
    + destruct g as [w|]; [|exact I]. rewrite H3, Ff. exact K5.
  - destruct (N.eqb_spec pc 0) as [->|]; [|discriminate]. intros E. injection E as <-. unfold K. cbn [fst snd].
    split; [exact K1|]. split; [destruct (chg s); lia|]. split; [intros _; apply K3; lia|]. split; [destruct (chg s); lia|].
    destruct g as [v|]; [|exact I]. destruct K5 as (V1 & V2 & V3 & V4 & V5). split; [exact V1|]. split; [exact V2|]. split; [exact V3|]. split; [|exact V5].
    destruct V4 as [[V4 _]|V4]; [left; split; [exact V4|destruct (chg s); lia]|right; exact V4].
  - destruct (N.eqb_spec pc 1) as [->|]; [|discriminate]. pose proof (applyLoop_get B (staged s) (fields s) [] [] k K1) as HG.
    destruct (applyLoop B (staged s) (fields s) [] []) as [[f ap] fw]. cbn [fst] in HG. intros E. injection E as <-.
    unfold K. cbn [fst snd staged fields chg]. split; [exact K1|]. split; [lia|]. split; [lia|]. split; [lia|].
    destruct g as [v|]; [|exact I]. destruct K5 as (V1 & V2 & V3 & V4 & V5). split; [exact V1|]. split; [exact V2|]. split; [exact V3|].
    assert (Gf : pget f k = Some v).
    { rewrite HG. destruct V3 as [V3|V3]; rewrite V3; [|apply V5, V3]. rewrite Hk. unfold okVal. rewrite V1, V2. reflexivity. }
    split; [right; exact Gf|intros _; exact Gf].
  - destruct (N.eqb_spec pc 2) as [->|]; [|discriminate]. intros E. injection E as <-. unfold K. cbn [fst snd staged setStagedMap fields chg].
    split; [constructor|]. split; [lia|]. split; [lia|]. split; [reflexivity|].
    destruct g as [v|]; [|exact I]. destruct K5 as (V1 & V2 & V3 & V4 & V5). split; [exact V1|]. split; [exact V2|]. split; [right; reflexivity|].
    assert (Gf : pget (fields s) k = Some v) by (destruct V4 as [[_ V4]|V4]; [lia|exact V4]). split; [right|intros _]; exact Gf.
  - destruct (N.eqb_spec pc 3) as [->|]; [|discriminate]. intros E. injection E as <-. unfold K. cbn [fst snd staged setChg fields chg].
    split; [exact K1|]. split; [lia|]. split; [lia|]. split; [intros _; apply K4; lia|].
    destruct g as [v|]; [|exact I]. destruct K5 as (V1 & V2 & V3 & V4 & V5). split; [exact V1|]. split; [exact V2|]. split; [exact V3|]. split; [|exact V5].
    destruct V4 as [[_ V4]|V4]; [lia|right; exact V4].
  - destruct (N.eqb_spec pc 4) as [->|]; [|discriminate]. intros E. injection E as <-. unfold K. cbn [fst snd staged setChg fields chg].
    rewrite (K4 ltac:(lia)) in *. split; [exact K1|]. split; [lia|]. split; [congruence|]. split; [lia|].
    destruct g as [v|]; [|exact I]. destruct K5 as (V1 & V2 & V3 & V4 & V5). split; [exact V1|]. split; [exact V2|]. split; [exact V3|]. split; [|exact V5].
    destruct V4 as [[_ V4]|V4]; [lia|right; exact V4].
Qed.

Lemma K_run B k : sane B -> has k (writ B) = true -> forall xs g a a', K B k g a -> outside B a xs -> Forall (fairStage B k) xs ->
  arun B a xs = Some a' -> K B k (fold_left (stagedStep B k) xs g) a'.
Proof.
  intros Hs Hk. induction xs as [|x xs IH]; intros g a a' HK Ho Hf; cbn [arun fold_left].
  - intros E. injection E as <-. exact HK.
  - cbn [outside] in Ho. destruct Ho as [Ho1 Ho2]. pose proof (Forall_inv Hf) as Hf1. pose proof (Forall_inv_tail Hf) as Hf2.
    destruct (arun1 B a x) as [a1|] eqn:E; [|discriminate]. apply IH; [|exact Ho2|exact Hf2].
    eapply K_step; try eassumption. destruct x; auto.
Qed.
