(** The stored values over all histories: what the code keeps answers like the complete log. *)
From Coq Require Import List NArith Arith Lia Bool Sorting.Sorted.
From Coq Require Import ZifyBool ZifyNat ZifyN.
From Verif Require Import SettModel SettSpec SettProofs.
Import ListNotations.
Local Open Scope N_scope.

(* ------------------------------------------------------------------ the log *)

Definition ofName (l : log) (n : N) : list entry :=
  flat_map (fun x => if snd (fst x) =? n then [(fst (fst x), snd x)] else []) l.

Lemma ofName_app l l' n : ofName (l ++ l') n = ofName l n ++ ofName l' n.
Proof. unfold ofName. apply flat_map_app. Qed.

Lemma ofName_snoc l c n m n' : ofName (l ++ [(c, n, m)]) n' = ofName l n' ++ if n =? n' then [(c, m)] else [].
Proof. rewrite ofName_app. f_equal. unfold ofName. cbn [flat_map fst snd]. rewrite app_nil_r. reflexivity. Qed.

Lemma ofName_in l n c m : In (c, m) (ofName l n) <-> In (c, n, m) l.
Proof.
  unfold ofName. rewrite in_flat_map. split.
  - intros ([[c' n'] m'] & Hi & H). cbn [fst snd] in H. destruct (N.eqb_spec n' n) as [->|]; [|contradiction].
    destruct H as [E|[]]. injection E as -> ->. exact Hi.
  - intros H. exists (c, n, m). split; [exact H|]. cbn [fst snd]. rewrite N.eqb_refl. left. reflexivity.
Qed.

Lemma currentFrom_char n t : forall l acc,
  match currentFrom acc l n t with
  | Some (c, m) => (acc = Some (c, m) \/ (In (c, m) (ofName l n) /\ c <= t))
                   /\ (forall e, In e (ofName l n) -> fst e <= t -> fst e <= c)
                   /\ (match acc with Some (c0, _) => c0 <= c | None => True end)
  | None => acc = None /\ forall e, In e (ofName l n) -> ~ fst e <= t
  end.
Proof.
  induction l as [|[[c1 n1] m1] l IH]; intros acc; cbn [currentFrom].
  - destruct acc as [[c m]|]; cbn [ofName flat_map].
    + split; [left; reflexivity|]. split; [intros e []|lia].
    + split; [reflexivity|intros e []].
  - change (ofName ((c1, n1, m1) :: l) n) with ((if n1 =? n then [(c1, m1)] else []) ++ ofName l n).
    destruct (N.eqb_spec n1 n) as [->|Hn]; cbn [andb app].
    2:{ apply IH. }
    destruct (N.leb_spec c1 t) as [Hc|Hc]; cbn [andb].
    + destruct acc as [[c0 m0]|].
      * destruct (N.leb_spec c0 c1) as [H01|H01]; cbn [andb].
        -- specialize (IH (Some (c1, m1))). destruct (currentFrom (Some (c1, m1)) l n t) as [[c m]|]; [|destruct IH; discriminate].
           destruct IH as (I1 & I2 & I3). split; [right|].
           { destruct I1 as [E|[I1 I1']]; [injection E as -> ->; split; [left; reflexivity|exact Hc]|split; [right; exact I1|exact I1']]. }
           split; [|lia]. intros e [ <- | He ] Hle; [cbn [fst]; exact I3|apply I2; assumption].
        -- specialize (IH (Some (c0, m0))). destruct (currentFrom (Some (c0, m0)) l n t) as [[c m]|]; [|destruct IH; discriminate].
           destruct IH as (I1 & I2 & I3). split.
           { destruct I1 as [E|[I1 I1']]; [left; exact E|right; split; [right; exact I1|exact I1']]. }
           split; [|exact I3]. intros e [ <- | He ] Hle; [cbn [fst]; lia|apply I2; assumption].
      * specialize (IH (Some (c1, m1))). destruct (currentFrom (Some (c1, m1)) l n t) as [[c m]|]; [|destruct IH; discriminate].
        destruct IH as (I1 & I2 & I3). split; [right|].
        { destruct I1 as [E|[I1 I1']]; [injection E as -> ->; split; [left; reflexivity|exact Hc]|split; [right; exact I1|exact I1']]. }
        split; [|exact I]. intros e [ <- | He ] Hle; [cbn [fst]; exact I3|apply I2; assumption].
    + specialize (IH acc). destruct (currentFrom acc l n t) as [[c m]|].
      * destruct IH as (I1 & I2 & I3). split.
        { destruct I1 as [E|[I1 I1']]; [left; exact E|right; split; [right; exact I1|exact I1']]. }
        split; [|exact I3]. intros e [ <- | He ] Hle; [cbn [fst] in Hle; lia|apply I2; assumption].
      * destruct IH as (I1 & I2). split; [exact I1|]. intros e [ <- | He ] Hle; [cbn [fst] in Hle; lia|apply (I2 e); assumption].
Qed.

Lemma distinct_entries l n e e' : distinctTimes l -> In e (ofName l n) -> In e' (ofName l n) -> fst e = fst e' -> e = e'.
Proof.
  destruct e as [c m], e' as [c' m']. cbn [fst]. rewrite !ofName_in. intros Hd H1 H2 ->. f_equal.
  unfold distinctTimes in Hd. revert Hd H1 H2. induction l as [|[[a b] d] l IH]; cbn [map fst snd]; intros Hd H1 H2; [contradiction|].
  apply NoDup_cons_iff in Hd. destruct Hd as [Hd1 Hd2].
  destruct H1 as [E1|H1], H2 as [E2|H2].
  - congruence.
  - exfalso. apply Hd1. injection E1 as -> -> ->. apply in_map_iff. exists (c', n, m'). auto.
  - exfalso. apply Hd1. injection E2 as -> -> ->. apply in_map_iff. exists (c', n, m). auto.
  - auto.
Qed.

Lemma current_char l n t m : distinctTimes l ->
  current l n t = Some m <-> exists c, In (c, m) (ofName l n) /\ c <= t /\ forall e, In e (ofName l n) -> ~ (c < fst e <= t).
Proof.
  intros Hd. unfold current. pose proof (currentFrom_char n t l None) as H.
  destruct (currentFrom None l n t) as [[c m0]|]; cbn [option_map snd].
  - destruct H as ([H|[H1 H2]] & H3 & _); [discriminate|]. split.
    + intros E. injection E as ->. exists c. split; [exact H1|]. split; [exact H2|]. intros e He [A B]. specialize (H3 e He B). lia.
    + intros (c' & G1 & G2 & G3). f_equal. specialize (H3 _ G1 G2). cbn [fst] in H3.
      assert (c = c'). { destruct (N.eq_dec c c'); [assumption|]. exfalso. apply (G3 _ H1). cbn [fst]. lia. }
      subst c'. pose proof (distinct_entries l n _ _ Hd H1 G1 eq_refl) as E. congruence.
  - destruct H as [_ H]. split; [discriminate|]. intros (c & G1 & G2 & _). exfalso. apply (H _ G1). exact G2.
Qed.

(* ------------------------------------------------------------------ what is kept of a list of entries *)

Lemma exists_latest (L : list entry) (a now : N) :
  (exists e, In e L /\ a < fst e <= now) -> exists e, In e L /\ a < fst e <= now /\ forall e', In e' L -> ~ (fst e < fst e' <= now).
Proof.
  induction L as [|x L IH]; intros (e & He & Ha); [contradiction|].
  destruct (existsb (fun e => (a <? fst e) && (fst e <=? now)) L) eqn:Ex.
  - apply existsb_exists in Ex. destruct Ex as (y & Hy & Ey).
    destruct IH as (z & Hz & Hz1 & Hz2); [exists y; split; [exact Hy|lia]|].
    destruct (N.ltb_spec (fst z) (fst x)) as [Hx|Hx].
    + destruct (N.leb_spec (fst x) now) as [Hn|Hn].
      * exists x. split; [left; reflexivity|]. split; [lia|]. intros e' [ <- | He' ] H; [lia|]. apply (Hz2 e' He'). lia.
      * exists z. split; [right; exact Hz|]. split; [exact Hz1|]. intros e' [ <- | He' ] H; [lia|]. apply (Hz2 e' He' H).
    + exists z. split; [right; exact Hz|]. split; [exact Hz1|]. intros e' [ <- | He' ] H; [lia|]. apply (Hz2 e' He' H).
  - destruct He as [ -> | He ].
    + exists e. split; [left; reflexivity|]. split; [exact Ha|]. intros e' [ <- | He' ] H; [lia|].
      rewrite <- not_true_iff_false in Ex. apply Ex. apply existsb_exists. exists e'. split; [exact He'|lia].
    + rewrite <- not_true_iff_false in Ex. exfalso. apply Ex. apply existsb_exists. exists e. split; [exact He|lia].
Qed.

Lemma keep_agree now (v L : list entry) :
  (forall e, In e v -> In (fst e) (map fst L)) ->
  (forall e, keep now L e -> In e v) -> (forall e, keep now v e -> In e L) ->
  forall e, keep now v e <-> keep now L e.
Proof.
  intros H1 H2 H3 e. split.
  - intros He. split; [apply H3, He|]. intros e' He' Hr.
    destruct (exists_latest L (fst e) now) as (z & Hz & Hz1 & Hz2); [exists e'; auto|].
    destruct He as [_ He]. apply (He z); [apply H2; split; assumption|exact Hz1].
  - intros He. split; [apply H2, He|]. intros e' He' Hr. specialize (H1 e' He'). apply in_map_iff in H1.
    destruct H1 as (z & Ez & Hz). destruct He as [_ He]. apply (He z Hz). rewrite Ez. exact Hr.
Qed.

(* ------------------------------------------------------------------ the invariant *)

(** The stored vector of a context (empty if the name is unknown). *)
Definition vecOf (s : st) (n : N) : list entry := match sget (stored s) n with Some v => v | None => [] end.

Definition inv (s : st) (l : log) (now : N) : Prop :=
  expiry s = never /\ distinctTimes l
  /\ forall n, StronglySorted lt1 (vecOf s n) /\ forall e, In e (vecOf s n) <-> keep now (ofName l n) e.

Lemma findName_null fuel l n : findName nullPred fuel l n = match sget l n with Some _ => Some n | None => None end.
Proof.
  unfold findName. destruct l as [|[a b] l]; [reflexivity|]. destruct (sget ((a, b) :: l) n); [reflexivity|].
  destruct fuel; reflexivity.
Qed.

Lemma getBest_null fuel s t n : StronglySorted lt1 (vecOf s n) -> t <> 0 ->
  getBest nullPred fuel s (t, n) = lookV (vecOf s n) t.
Proof.
  intros Hs Ht. unfold getBest, findBest. cbn [fst snd]. rewrite findName_null. unfold vecOf in *.
  destruct (sget (stored s) n) as [v|] eqn:E; [|reflexivity]. rewrite E.
  rewrite <- lookV_ok by assumption. destruct (findTime v t); [rewrite E|]; reflexivity.
Qed.

(** The code's answer is the log's answer at every time with nothing stored between it and the last purge. *)
Lemma lookup_agree fuel s l now n t :
  inv s l now -> t <> 0 -> (forall e, In e (ofName l n) -> ~ (t < fst e <= now)) ->
  getBest nullPred fuel s (t, n) = current l n t.
Proof.
  intros (_ & Hd & Hv) Ht Hno. destruct (Hv n) as [Hs Hin]. rewrite getBest_null by assumption.
  assert (G : forall m, lookV (vecOf s n) t = Some m <-> current l n t = Some m).
  { intros m. rewrite lookV_char by exact Hs. rewrite current_char by exact Hd. split; intros (c & H1 & H2 & H3); exists c.
    - apply Hin in H1. destruct H1 as [H1 H1']. split; [exact H1|]. split; [exact H2|]. intros e He Hr.
      destruct (exists_latest (ofName l n) c t) as (z & Hz & Hz1 & Hz2); [exists e; auto|].
      apply (H3 z); [|exact Hz1]. apply Hin. split; [exact Hz|]. intros e' He' Hr'.
      destruct (N.leb_spec (fst e') t); [apply (Hz2 e' He'); lia|apply (Hno e' He'); lia].
    - split; [apply Hin; split; [exact H1|]|].
      + intros e' He' Hr'. cbn [fst] in Hr'. destruct (N.leb_spec (fst e') t); [apply (H3 e' He'); lia|apply (Hno e' He'); lia].
      + split; [exact H2|]. intros e He Hr. apply (H3 e); [|exact Hr]. apply Hin in He. apply He. }
  destruct (lookV (vecOf s n) t) as [m|] eqn:E.
  - symmetry. apply G. reflexivity.
  - destruct (current l n t) as [m|] eqn:E'; [|reflexivity]. exfalso. destruct (G m) as [_ G']. specialize (G' eq_refl). discriminate G'.
Qed.

(* ------------------------------------------------------------------ frames *)

(** A vector after the removal of outdated entries. *)
Definition cut (now : N) (v : list entry) : list entry := match v with [] => [] | _ => skipn (outdated now v) v end.

Section Frames.
Variable B : bdesc.
Variable pred : N -> N -> N -> option bool.
Variable fuel : nat.

Lemma ensureAuto_frame s c : stored (ensureAuto B pred fuel s c) = stored s /\ expiry (ensureAuto B pred fuel s c) = expiry s
  /\ dflt (ensureAuto B pred fuel s c) = dflt s /\ staged (ensureAuto B pred fuel s c) = staged s /\ active (ensureAuto B pred fuel s c) = active s
  /\ fields (ensureAuto B pred fuel s c) = fields s /\ actx (ensureAuto B pred fuel s c) = actx s /\ chg (ensureAuto B pred fuel s c) = chg s.
Proof. unfold ensureAuto. destruct (aget (autoU s) c); cbn; repeat split; reflexivity. Qed.

Lemma setStaged_frame s ps : let s' := fst (setStaged B s ps) in
  stored s' = stored s /\ expiry s' = expiry s /\ dflt s' = dflt s /\ autoU s' = autoU s /\ active s' = active s
  /\ fields s' = fields s /\ actx s' = actx s.
Proof.
  unfold setStaged. destruct (stageLoop B ps (staged s) []) as [stg [r|]]; [destruct (isEmpty stg)|]; cbn; repeat split; reflexivity.
Qed.

Lemma activate_frame s now c : let s' := fst (activate B pred fuel s now c) in
  stored s' = stored s /\ expiry s' = expiry s /\ dflt s' = dflt s /\ active s' = active s /\ fields s' = fields s.
Proof.
  unfold activate. destruct (findBest pred fuel s (timed now c)) as [b|]; [|cbn; repeat split; reflexivity].
  destruct (ctxEqb b (actx s)); [cbn; repeat split; reflexivity|].
  destruct (snd b =? snd (actx s)).
  - destruct (getBest pred fuel s (timed now c)) as [m|]; [|cbn; repeat split; reflexivity].
    match goal with |- context [setStaged B ?s1 ?ps] =>
      pose proof (setStaged_frame s1 ps) as H; destruct (setStaged B s1 ps) as [s2 [r|]] end;
    cbn [fst] in H; destruct H as (H1 & H2 & H3 & _ & H4 & H5 & _);
    destruct (ensureAuto_frame s b) as (E1 & E2 & E3 & _ & E4 & E5 & _);
    cbn; rewrite ?H1, ?H2, ?H3, ?H4, ?H5, ?E1, ?E2, ?E3, ?E4, ?E5; repeat split; reflexivity.
  - destruct (getBest pred fuel s (timed now c)) as [m|]; cbn; repeat split; reflexivity.
Qed.

Lemma applyStaged_frame s : let s' := fst (fst (applyStaged B s)) in
  stored s' = stored s /\ expiry s' = expiry s /\ dflt s' = dflt s /\ autoU s' = autoU s /\ actx s' = actx s.
Proof. unfold applyStaged. destruct (applyLoop B (staged s) (fields s) [] []) as [[f ap] fw]. cbn. repeat split; reflexivity. Qed.

Lemma autoUpdate_frame s a b t s' : autoUpdate B pred fuel s a b t = Some s' ->
  stored s' = stored s /\ expiry s' = expiry s /\ dflt s' = dflt s /\ active s' = active s /\ fields s' = fields s.
Proof.
  unfold autoUpdate. destruct (negb (relevant B t)).
  { intros H. injection H as <-. destruct (chg s && isEmpty (staged s)); cbn; repeat split; reflexivity. }
  assert (G : forall s1 c, stored s1 = stored s /\ expiry s1 = expiry s /\ dflt s1 = dflt s /\ active s1 = active s /\ fields s1 = fields s ->
     match (let changed := negb (ctxEqb (actx s) c) in
        let s2 := match aget (autoU s1) c with
                  | Some _ => s1
                  | None => let sE := setAuto s1 (aput (autoU s1) c []) in
                            setAuto s1 (aput (autoU s1) c (match getBestAuto pred fuel sE c with Some x => x | None => writ B end))
                  end in
        let au := match aget (autoU s2) c with Some x => x | None => [] end in
        let '(stg, was) := tagLoop B (tVals t) changed (active s2) au (staged s2) false in
        let s3 := setStagedMap s2 stg in
        Some (if (match tagContext a t with None => true | Some _ => false end) && negb was && isEmpty stg then setChg s3 false
              else if changed || was then setChg s3 true else s3)) with
     | Some s' => stored s' = stored s /\ expiry s' = expiry s /\ dflt s' = dflt s /\ active s' = active s /\ fields s' = fields s
     | None => True end).
  { intros s1 c (H1 & H2 & H3 & H4 & H5). cbv zeta.
    destruct (aget (autoU s1) c).
    - match goal with |- context [tagLoop ?x1 ?x2 ?x3 ?x4 ?x5 ?x6 ?x7] => destruct (tagLoop x1 x2 x3 x4 x5 x6 x7) as [stg was] end.
      destruct (_ && _ && isEmpty stg); [|destruct (_ || was)]; cbn; auto.
    - match goal with |- context [tagLoop ?x1 ?x2 ?x3 ?x4 ?x5 ?x6 ?x7] => destruct (tagLoop x1 x2 x3 x4 x5 x6 x7) as [stg was] end.
      destruct (_ && _ && isEmpty stg); [|destruct (_ || was)]; cbn; auto. }
  cbv zeta in G. cbv zeta. destruct (tagContext a t) as [c|].
  - pose proof (activate_frame s b c) as HF. destruct (activate B pred fuel s b c) as [s1 [[b1|]|]]; cbn [fst] in HF; [| |discriminate].
    + specialize (G s1 b1 HF). intros H. rewrite H in G. exact G.
    + specialize (G s1 (actx s1) HF). intros H. rewrite H in G. exact G.
  - specialize (G s (actx s) (conj eq_refl (conj eq_refl (conj eq_refl (conj eq_refl eq_refl))))). intros H. rewrite H in G. exact G.
Qed.

Lemma addStored_frame s m c : let s' := addStored B pred fuel s m c in
  expiry s' = expiry s /\ dflt s' = dflt s /\ staged s' = staged s /\ active s' = active s /\ fields s' = fields s /\ actx s' = actx s /\ chg s' = chg s.
Proof.
  unfold addStored. destruct (ensureAuto_frame s c) as (E1 & E2 & E3 & E4 & E5 & E6 & E7 & E8). cbn.
  rewrite E2, E3, E4, E5, E6, E7, E8. repeat split; reflexivity.
Qed.

Lemma addStored_vec s m c n : vecOf (addStored B pred fuel s m c) n =
  if snd c =? n then before (fst c) (vecOf s n) ++ (fst c, m) :: from (fst c) (vecOf s n) else vecOf s n.
Proof.
  unfold vecOf, addStored. cbn [stored setStored]. rewrite sget_sput.
  destruct (ensureAuto_frame s c) as (E1 & _). rewrite E1. destruct (N.eqb_spec (snd c) n) as [ <- |]; reflexivity.
Qed.

Lemma removeExpired_frame s now : let s' := removeExpired s now in
  expiry s' = expiry s /\ dflt s' = dflt s /\ staged s' = staged s /\ active s' = active s /\ fields s' = fields s /\ actx s' = actx s /\ chg s' = chg s.
Proof. unfold removeExpired. destruct (purgeAll (expiry s) now (stored s) (autoU s)) as [l au]. cbn. repeat split; reflexivity. Qed.

Lemma removeExpired_vec s now n : expiry s = never ->
  vecOf (removeExpired s now) n = cut now (vecOf s n).
Proof.
  intros He. unfold vecOf, removeExpired. rewrite He. pose proof (sget_purgeAll never now (stored s) (autoU s) n) as H.
  destruct (purgeAll never now (stored s) (autoU s)) as [l au]. cbn [stored setAuto setStored fst] in *. rewrite H.
  destruct (sget (stored s) n) as [v|]; [|reflexivity]. unfold purge. rewrite N.eqb_refl. destruct v; reflexivity.
Qed.

Lemma setLoop_result ps : forall m au ret, let '(m', au', ret', ok) := setLoop B ps m au ret in
  ok = negb (existsb (fun kv => has (fst kv) (writ B) && match conv B (fst kv) (snd kv) with None => true | _ => false end) ps)
  /\ (ok = true -> m' = overlay B m ps).
Proof.
  unfold overlay. induction ps as [|[k v] ps IH]; intros m au ret; cbn [setLoop existsb fold_left fst snd]; [auto|].
  destruct (has k (writ B)); cbn [andb].
  - destruct (conv B k v) as [v'|]; cbn [orb negb]; [apply IH|]. split; [reflexivity|discriminate].
  - apply IH.
Qed.

End Frames.

(* ------------------------------------------------------------------ preservation *)

Lemma inv_frame s s' l now : stored s' = stored s -> expiry s' = expiry s -> inv s l now -> inv s' l now.
Proof. intros E1 E2 H. unfold inv, vecOf in *. rewrite E1, E2. exact H. Qed.

(** Adding an entry and purging: the entry is the log's entry unless it is outdated at once. *)
Lemma inv_add B fuel s l now now2 c n m m' :
  inv s l now -> now <= now2 -> distinctTimes (l ++ [(c, n, m)]) ->
  ((forall e, In e (ofName l n) -> ~ (c < fst e <= now2)) -> m' = m) ->
  inv (removeExpired (addStored B nullPred fuel s m' (c, n)) now2) (l ++ [(c, n, m)]) now2.
Proof.
  intros (He & Hd & Hv) Hnow Hd' Hm.
  pose proof (addStored_frame B nullPred fuel s m' (c, n)) as (F1 & _).
  split; [destruct (removeExpired_frame (addStored B nullPred fuel s m' (c, n)) now2) as (G1 & _); rewrite G1, F1; exact He|].
  split; [exact Hd'|]. intros n'. rewrite removeExpired_vec by (rewrite F1; exact He). rewrite addStored_vec. cbn [fst snd].
  destruct (Hv n') as [Hs Hin].
  assert (Hnew : ~ In c (map fst (ofName l n))).
  { intros Hc. apply in_map_iff in Hc. destruct Hc as ([c' mm] & E & Hc). cbn [fst] in E. subst c'. apply ofName_in in Hc.
    unfold distinctTimes in Hd'. rewrite map_app in Hd'. cbn [map fst snd] in Hd'.
    apply NoDup_remove in Hd'. destruct Hd' as [_ Hd']. rewrite app_nil_r in Hd'. apply Hd'. apply in_map_iff. exists (c, n, mm). auto. }
  assert (P : forall v, StronglySorted lt1 v ->
     (forall e, In e v -> In (fst e) (map fst (ofName (l ++ [(c, n, m)]) n'))) ->
     (forall e, keep now2 (ofName (l ++ [(c, n, m)]) n') e -> In e v) -> (forall e, keep now2 v e -> In e (ofName (l ++ [(c, n, m)]) n')) ->
     StronglySorted lt1 (cut now2 v)
     /\ forall e, In e (cut now2 v) <-> keep now2 (ofName (l ++ [(c, n, m)]) n') e).
  { intros v Hsv P1 P2 P3. unfold cut. destruct v as [|x v].
    - split; [constructor|]. intros e. split; [intros []|]. intros Hk. exact (P2 e Hk).
    - split; [apply skipn_sorted; exact Hsv|]. intros e. rewrite purge_keep by (exact Hsv || discriminate).
      apply keep_agree; assumption. }
  rewrite ofName_snoc in P |- *.
  destruct (N.eqb_spec n n') as [ <- | Hne ].
  - (* the context that got the new values *)
    apply P.
    + apply insert_sorted; [exact Hs|]. intros Hc. apply Hnew. apply in_map_iff in Hc. destruct Hc as (e & E & Hi).
      apply in_map_iff. exists e. split; [exact E|]. apply Hin in Hi. apply Hi.
    + intros e Hi. apply insert_in in Hi. rewrite map_app. apply in_or_app. destruct Hi as [ -> | Hi ]; [right; left; reflexivity|].
      left. apply in_map. apply Hin in Hi. apply Hi.
    + intros e [Hi Hk]. apply insert_in. apply in_app_or in Hi. destruct Hi as [Hi|[ <- | [] ]].
      * right. apply Hin. split; [exact Hi|]. intros e' He' Hr. apply (Hk e'); [apply in_or_app; left; exact He'|lia].
      * left. f_equal. symmetry. apply Hm. intros e' He' Hr. apply (Hk e'); [apply in_or_app; left; exact He'|exact Hr].
    + intros e [Hi Hk]. apply insert_in in Hi. apply in_or_app. destruct Hi as [ -> | Hi ].
      * right. left. f_equal. symmetry. apply Hm. intros e' He' Hr. cbn [fst] in Hk.
        destruct (exists_latest (ofName l n) c now2) as (z & Hz & Hz1 & Hz2); [exists e'; auto|].
        apply (Hk z); [|exact Hz1]. apply insert_in. right. apply Hin. split; [exact Hz|].
        intros e'' He'' Hr''. apply (Hz2 e'' He''). lia.
      * left. apply Hin in Hi. apply Hi.
  - rewrite app_nil_r in P |- *. apply P.
    + exact Hs.
    + intros e Hi. apply in_map. apply Hin in Hi. apply Hi.
    + intros e [Hi Hk]. apply Hin. split; [exact Hi|]. intros e' He' Hr. apply (Hk e' He'). lia.
    + intros e [Hi _]. apply Hin in Hi. apply Hi.
Qed.

Lemma ascending_last now l x : ascending now l -> In x l -> now <= x.
Proof.
  revert now. induction l as [|a l IH]; intros now; cbn [ascending In]; [contradiction|].
  intros [H1 H2] [ -> | Hi ]; [exact H1|]. specialize (IH a H2 Hi). lia.
Qed.

(** One operation. *)
Lemma inv_step B fuel s l now o :
  0 < now -> inv s l now -> ascending now (readings o) -> distinctTimes (logStep B (dflt s) l o) ->
  exists now', now <= now' <= lastReading now (readings o) /\ inv (stepS B nullPred fuel s o) (logStep B (dflt s) l o) now'.
Proof.
  intros H0 Hi Ha Hd. destruct o as [a b ps [t n]|a c|a b t| |ps|a b d|]; cbn [stepS readings lastReading last logStep] in *.
  - cbn [ascending] in Ha. destruct Ha as (Ha & Hb & _).
    unfold set. set (c := timed a (t, n)) in *.
    assert (Ec : c = (if t =? 0 then a else t, n)) by reflexivity.
    set (t' := if t =? 0 then a else t) in *. assert (Ht' : t' <> 0) by (subst t'; destruct (N.eqb_spec t 0); lia).
    rewrite Ec. set (m0 := match getBest nullPred fuel s (t', n) with Some m => m | None => dflt s end).
    set (s1 := ensureAuto B nullPred fuel s (t', n)).
    set (au0 := match aget (autoU s1) (t', n) with Some x => x | None => [] end).
    pose proof (setLoop_result B ps m0 au0 []) as HL. destruct (setLoop B ps m0 au0 []) as [[[m au] ret] ok].
    destruct HL as [Hok Hm].
    destruct (ensureAuto_frame B nullPred fuel s (t', n)) as (E1 & E2 & _). fold s1 in E1, E2.
    destruct (existsb (fun kv => has (fst kv) (writ B) && match conv B (fst kv) (snd kv) with None => true | _ => false end) ps); cbn [negb] in Hok; subst ok; cbn [fst].
    + exists now. split; [lia|]. apply (inv_frame s); [exact E1|exact E2|exact Hi].
    + exists b. split; [lia|]. rewrite (Hm eq_refl). apply (inv_add B fuel _ l now).
      * apply (inv_frame s); [exact E1|exact E2|exact Hi].
      * lia.
      * exact Hd.
      * intros Hno. f_equal. subst m0. rewrite (lookup_agree fuel s l now n t' Hi Ht'); [reflexivity|].
        intros e He Hr. apply (Hno e He). lia.
  - exists now. cbn [ascending] in Ha. split; [lia|].
    destruct (activate_frame B nullPred fuel s a c) as (E1 & E2 & _). apply (inv_frame s); assumption.
  - cbn [ascending] in Ha. exists now. split; [lia|]. destruct (autoUpdate B nullPred fuel s a b t) as [s'|] eqn:E; [|exact Hi].
    destruct (autoUpdate_frame B nullPred fuel s a b t s' E) as (E1 & E2 & _). apply (inv_frame s); assumption.
  - exists now. split; [lia|]. unfold applyChanged. destruct (chg s); [|exact Hi].
    destruct (applyStaged_frame B s) as (E1 & E2 & _). apply (inv_frame s); assumption.
  - exists now. split; [lia|]. destruct (setStaged_frame B s ps) as (E1 & E2 & _). apply (inv_frame s); assumption.
  - cbn [ascending] in Ha. exists d. split; [lia|]. unfold resetDefaults.
    set (s1 := addStored B nullPred fuel s (dflt s) (a, 0)).
    pose proof (activate_frame B nullPred fuel s1 b (0, 0)) as HA. destruct (activate B nullPred fuel s1 b (0, 0)) as [s2 r].
    cbn [fst] in HA |- *. destruct HA as (A1 & A2 & _).
    pose proof (applyStaged_frame B s2) as HP. destruct (applyStaged B s2) as [[s3 x] y]. cbn [fst] in HP. destruct HP as (P1 & P2 & _).
    assert (G : inv (removeExpired s1 d) (l ++ [(a, 0, dflt s)]) d).
    { apply (inv_add B fuel s l now); [exact Hi|lia|exact Hd|reflexivity]. }
    destruct G as (G1 & G2 & G3).
    assert (Eall : forall n, vecOf (removeExpired s3 d) n = vecOf (removeExpired s1 d) n).
    { intros n. pose proof (addStored_frame B nullPred fuel s (dflt s) (a, 0)) as (F1 & _). fold s1 in F1.
      destruct Hi as (He & _). rewrite !removeExpired_vec by congruence. unfold vecOf. rewrite P1, A1. reflexivity. }
    split; [destruct (removeExpired_frame s3 d) as (R1 & _), (removeExpired_frame s1 d) as (R2 & _); congruence|].
    split; [exact G2|]. intros n. rewrite Eall. apply G3.
  - exists now. split; [lia|]. apply (inv_frame s); [reflexivity|reflexivity|exact Hi].
Qed.

Lemma logOf_mono B fuel : forall os s l, exists l', logOf B nullPred fuel s l os = l ++ l'.
Proof.
  induction os as [|o os IH]; intros s l; cbn [logOf]; [exists []; rewrite app_nil_r; reflexivity|].
  destruct (IH (stepS B nullPred fuel s o) (logStep B (dflt s) l o)) as [l' ->].
  assert (G : exists l'', logStep B (dflt s) l o = l ++ l'').
  { destruct o as [a b ps [t n]|a c|a b t| |ps|a b d|]; cbn [logStep]; try (exists []; rewrite app_nil_r; reflexivity).
    - destruct (existsb _ ps); [exists []; rewrite app_nil_r; reflexivity|eexists; reflexivity].
    - eexists; reflexivity. }
  destruct G as [l'' ->]. exists (l'' ++ l'). rewrite app_assoc. reflexivity.
Qed.

Lemma distinct_prefix l l' : distinctTimes (l ++ l') -> distinctTimes l.
Proof.
  unfold distinctTimes. rewrite map_app. intros H. induction (map _ l) as [|a r IH]; [constructor|].
  cbn [app] in H. apply NoDup_cons_iff in H. destruct H as [H1 H2]. constructor; [|auto]. intros Hi. apply H1, in_or_app. auto.
Qed.

Lemma last_default {X} (l : list X) x y : l <> [] -> last l x = last l y.
Proof. induction l as [|a l IH]; [contradiction|]. intros _. destruct l as [|b l]; [reflexivity|]. cbn [last]. apply IH. discriminate. Qed.

Lemma ascending_app now a b : ascending now (a ++ b) -> ascending now a /\ ascending (last a now) b.
Proof.
  revert now. induction a as [|x a IH]; intros now; cbn [app ascending]; [auto|]. intros [H1 H2].
  destruct (IH x H2) as [I1 I2]. split; [auto|]. destruct a as [|y a]; [exact I2|].
  change (last (x :: y :: a) now) with (last (y :: a) now). rewrite (last_default (y :: a) now x) by discriminate. exact I2.
Qed.

Lemma last_app {X} (a b : list X) d : last (a ++ b) d = last b (last a d).
Proof.
  revert d. induction a as [|x a IH]; intros d; cbn [app]; [destruct b; reflexivity|].
  destruct a as [|y a].
  - cbn [app]. destruct b as [|z b]; [reflexivity|]. cbn [last]. destruct b; [reflexivity|]. apply last_default. discriminate.
  - change (last (x :: (y :: a) ++ b) d) with (last ((y :: a) ++ b) d). rewrite IH. reflexivity.
Qed.

Lemma ascending_weaken now now' l : now' <= now -> ascending now l -> ascending now' l.
Proof. destruct l; cbn [ascending]; [auto|]. intros H [H1 H2]. split; [lia|exact H2]. Qed.

Lemma inv_run B fuel : forall os s l now last0,
  0 < now -> now <= last0 -> inv s l now -> ascending last0 (flat_map readings os) -> distinctTimes (logOf B nullPred fuel s l os) ->
  exists now', now' <= lastReading last0 (flat_map readings os) /\ 0 < now' /\ inv (runS B nullPred fuel s os) (logOf B nullPred fuel s l os) now'.
Proof.
  induction os as [|o os IH]; intros s l now last0 H0 Hle Hi Ha Hd; cbn [flat_map runS fold_left logOf] in *.
  - exists now. cbn. auto.
  - apply ascending_app in Ha. destruct Ha as [Ha1 Ha2].
    destruct (logOf_mono B fuel os (stepS B nullPred fuel s o) (logStep B (dflt s) l o)) as [l' El].
    assert (Hd1 : distinctTimes (logStep B (dflt s) l o)) by (rewrite El in Hd; apply distinct_prefix in Hd; exact Hd).
    destruct (inv_step B fuel s l now o H0 Hi (ascending_weaken _ _ _ Hle Ha1) Hd1) as (now' & [Hn1 Hn2] & Hi').
    assert (Hn3 : now' <= last (readings o) last0).
    { destruct (readings o) as [|r rs] eqn:Er; [cbn in Hn2 |- *; lia|]. unfold lastReading in Hn2. rewrite (last_default (r :: rs) last0 now) by discriminate. exact Hn2. }
    destruct (IH (stepS B nullPred fuel s o) (logStep B (dflt s) l o) now' (last (readings o) last0) ltac:(lia) Hn3 Hi' Ha2 Hd) as (now'' & Hm1 & Hm2 & Hm3).
    exists now''. split; [unfold lastReading in *; rewrite last_app; exact Hm1|]. split; [exact Hm2|exact Hm3].
Qed.
