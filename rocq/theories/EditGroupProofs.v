(** Proofs about grouping. *)
From Coq Require Import Ascii ZArith NArith Bool Arith Permutation Lia String List.
From Verif Require Import Base TopoModel EditModel EditSpec EditProofs.
Import ListNotations.
Local Open Scope nat_scope.
Local Open Scope list_scope.

(** ** Exported names are fresh *)

Definition cand (stem : string) (k : N) : string := (stem ++ "_" ++ showN k)%string.

Fixpoint cands (stem : string) (k : N) (n : nat) : list string :=
  match n with O => [] | S m => cand stem k :: cands stem (N.succ k) m end.

Lemma cand_inj stem a b : cand stem a = cand stem b -> a = b.
Proof. unfold cand. intros H. apply append_inj_l in H. cbn in H. injection H as H. apply showN_inj. exact H. Qed.

Lemma cands_ge stem n k c : In c (cands stem k n) -> exists j, (k <= j)%N /\ c = cand stem j.
Proof.
  revert k. induction n as [|n IH]; cbn; intros k H; [destruct H|]. destruct H as [<-|H]; [exists k; split; [lia|reflexivity]|].
  destruct (IH _ H) as (j & Hj & E). exists j. split; [lia|exact E].
Qed.

Lemma cands_nodup stem n k : NoDup (cands stem k n).
Proof.
  revert k. induction n as [|n IH]; cbn; intros k; constructor; [|apply IH]. intros H.
  destruct (cands_ge _ _ _ _ H) as (j & Hj & E). apply cand_inj in E. lia.
Qed.

Lemma cands_length stem n k : List.length (cands stem k n) = n.
Proof. revert k. induction n as [|n IH]; cbn; intros k; [reflexivity|]. rewrite IH. reflexivity. Qed.

Lemma suffixLoop_taken taken stem fuel k : taken (suffixLoop taken stem k fuel) = true ->
  forall c, In c (cands stem k (S fuel)) -> taken c = true.
Proof.
  revert k. induction fuel as [|f IH]; intros k H c Hc.
  - cbn in H, Hc. destruct Hc as [<-|[]]. exact H.
  - cbn [suffixLoop] in H. fold (cand stem k) in H. destruct (taken (cand stem k)) eqn:E; [|congruence].
    change (In c (cand stem k :: cands stem (N.succ k) (S f))) in Hc. destruct Hc as [<-|Hc]; [exact E|].
    exact (IH _ H c Hc).
Qed.

Lemma isTaken_in ops d c : isTaken ops d c = true <-> exists o, In o ops /\ pdir o = d /\ pext o = c.
Proof.
  unfold isTaken. rewrite existsb_exists. split.
  - intros (o & Ho & H). apply andb_prop in H as [H1 H2]. apply String.eqb_eq in H2. exists o.
    destruct (pdir o), d; try discriminate; auto.
  - intros (o & Ho & <- & <-). exists o. rewrite String.eqb_refl. destruct (pdir o); auto.
Qed.

Lemma exportName_fresh ops b d int : isTaken ops d (exportName ops b d int) = false.
Proof.
  unfold exportName. set (stem := (gname b ++ "." ++ int)%string). destruct (isTaken ops d stem) eqn:E; [|exact E].
  destruct (isTaken ops d (suffixLoop (isTaken ops d) stem 1 (List.length ops))) eqn:F; [|reflexivity]. exfalso.
  pose proof (suffixLoop_taken _ _ _ _ F) as H.
  assert (Hi : incl (cands stem 1 (S (List.length ops))) (map pext ops)).
  { intros c Hc. apply H in Hc. apply isTaken_in in Hc as (o & Ho & _ & <-). apply in_map. exact Ho. }
  apply NoDup_incl_length in Hi; [|apply cands_nodup]. rewrite cands_length, map_length in Hi. lia.
Qed.

Lemma suffixLoop_form taken stem fuel k : exists j, suffixLoop taken stem k fuel = cand stem j.
Proof.
  revert k. induction fuel as [|f IH]; intros k; cbn [suffixLoop]; [exists k; reflexivity|].
  fold (cand stem k). destruct (taken (cand stem k)); [apply IH|exists k; reflexivity].
Qed.

Lemma exportName_hashFree ops b d int : hashFree (gname b) -> hashFree int -> hashFree (exportName ops b d int).
Proof.
  intros Hb Hi. assert (Hs : hashFree (gname b ++ "." ++ int)%string).
  { apply hashFree_app. split; [exact Hb|]. apply hashFree_app. split; [|exact Hi]. unfold hashFree. cbn. intuition discriminate. }
  unfold exportName. destruct (isTaken _ _ _); [|exact Hs].
  destruct (suffixLoop_form (isTaken ops d) (gname b ++ "." ++ int)%string (List.length ops) 1) as [j ->].
  apply hashFree_app. split; [exact Hs|]. apply hashFree_app. split; [unfold hashFree; cbn; intuition discriminate|apply showN_hashFree].
Qed.

Lemma append_cons_nonempty a c r : (a ++ String c r)%string <> EmptyString.
Proof. destruct a; discriminate. Qed.

Lemma exportName_nonempty ops b d int : exportName ops b d int <> EmptyString.
Proof.
  unfold exportName. destruct (isTaken _ _ _); [|apply append_cons_nonempty].
  destruct (suffixLoop_form (isTaken ops d) (gname b ++ "." ++ int)%string (List.length ops) 1) as [j ->].
  apply append_cons_nonempty.
Qed.

(** ** The plan *)

Definition opKey (o : PExport) : nat * Dir * string := (gid (pblk o), pdir o, pint o).
Definition opName (o : PExport) : Dir * string := (pdir o, pext o).

Record opsOk (targets : list GBlock) (ops : list PExport) : Prop := {
  ok_in : forall o, In o ops -> In (pblk o) targets;
  ok_keys : NoDup (map opKey ops);
  ok_names : NoDup (map opName ops);
  ok_full : forall o, In o ops -> pext o <> EmptyString }.

Lemma same_block targets a b : NoDup (map gid targets) -> In a targets -> In b targets -> gid a = gid b -> a = b.
Proof.
  induction targets as [|t r IH]; cbn; intros Hn Ha Hb E; [destruct Ha|]. inversion Hn as [|? ? Ht Hr]; subst.
  destruct Ha as [->|Ha], Hb as [->|Hb]; [reflexivity| | |exact (IH Hr Ha Hb E)]; exfalso; apply Ht.
  - rewrite E. apply in_map. exact Hb.
  - rewrite <- E. apply in_map. exact Ha.
Qed.

Lemma NoDup_snoc (A : Type) (l : list A) x : NoDup l -> ~ In x l -> NoDup (l ++ [x]).
Proof.
  intros H Hx. apply (Permutation_NoDup (l := x :: l)); [|constructor; assumption].
  apply Permutation_cons_append.
Qed.

Lemma dirEq_eq a b : dirEq a b = true <-> a = b.
Proof. destruct a, b; cbn; intuition congruence. Qed.

Lemma findOrCreate_spec targets ops b d int ops' ext : NoDup (map gid targets) -> opsOk targets ops -> In b targets ->
  findOrCreateExport ops b d int = (ops', ext) ->
  opsOk targets ops' /\ (exists x, ops' = ops ++ x) /\
  (exists o, In o ops' /\ pblk o = b /\ pdir o = d /\ pint o = int /\ pext o = ext) /\
  (forall o, In o ops' -> In o ops \/ (pblk o = b /\ pdir o = d /\ pint o = int)) /\
  (hashFree (gname b) -> hashFree int -> forall o, In o ops' -> In o ops \/ hashFree (pext o)).
Proof.
  intros Hn Hok Hb. unfold findOrCreateExport.
  destruct (find _ ops) as [o|] eqn:E.
  - intros H. injection H as <- <-. apply find_some in E as [Ho E]. apply andb_prop in E as [E E3]. apply andb_prop in E as [E1 E2].
    apply Nat.eqb_eq in E1. apply dirEq_eq in E2. apply String.eqb_eq in E3.
    repeat apply conj; [exact Hok|exists []; rewrite app_nil_r; reflexivity| | |].
    + exists o. repeat apply conj; auto. apply (same_block targets); auto. apply (ok_in _ _ Hok), Ho.
    + auto.
    + auto.
  - intros H. injection H as <- <-. pose proof (exportName_fresh ops b d int) as Hf. set (ext := exportName ops b d int) in *.
    destruct Hok as [I1 I2 I3 I4]. repeat apply conj.
    + split.
      * intros o Ho. apply in_app_or in Ho as [Ho|[<-|[]]]; [apply I1, Ho|exact Hb].
      * rewrite map_app. cbn [map]. apply NoDup_snoc; [exact I2|]. intros Hi. apply in_map_iff in Hi as (o & Ek & Ho).
        apply (find_none _ _ E) in Ho. unfold opKey in Ek. cbn in Ek. injection Ek as Ek1 Ek2 Ek3. cbn beta in Ho.
        rewrite Ek1, Ek2, Ek3, Nat.eqb_refl, String.eqb_refl in Ho. destruct d; discriminate.
      * rewrite map_app. cbn [map]. apply NoDup_snoc; [exact I3|]. intros Hi. apply in_map_iff in Hi as (o & Ek & Ho).
        unfold opName in Ek. cbn in Ek. injection Ek as E1 E2. assert (isTaken ops d ext = true); [|congruence].
        apply isTaken_in. exists o. auto.
      * intros o Ho. apply in_app_or in Ho as [Ho|[<-|[]]]; [apply I4, Ho|apply exportName_nonempty].
    + eexists; reflexivity.
    + exists (mkPExport b d int ext). split; [apply in_or_app; right; left; reflexivity|]. auto.
    + intros o Ho. apply in_app_or in Ho as [Ho|[<-|[]]]; auto.
    + intros H1 H2 o Ho. apply in_app_or in Ho as [Ho|[<-|[]]]; [auto|right]. cbn. apply exportName_hashFree; assumption.
Qed.

Definition isInternal targets (e : GEdge) : bool := grouped targets (gsrc e) && grouped targets (gdst e).
Definition isCrossing targets (e : GEdge) : bool := xorb (grouped targets (gsrc e)) (grouped targets (gdst e)).
Definition isOuter targets (e : GEdge) : bool := negb (grouped targets (gsrc e) || grouped targets (gdst e)).

Lemma grouped_in targets i : grouped targets i = true <-> exists b, In b targets /\ gid b = i.
Proof.
  unfold grouped. rewrite existsb_exists. split; intros (b & Hb & E); exists b; split; auto; apply Nat.eqb_eq; exact E.
Qed.

Lemma findB_some i bs b : findB i bs = Some b -> In b bs /\ gid b = i.
Proof.
  induction bs as [|x r IH]; cbn; intros H; [discriminate|]. destruct (Nat.eqb_spec (gid x) i) as [E|E].
  - injection H as <-. auto.
  - destruct (IH H) as [H1 H2]. auto.
Qed.

Lemma findB_in bs b : NoDup (map gid bs) -> In b bs -> findB (gid b) bs = Some b.
Proof.
  induction bs as [|x r IH]; cbn; intros Hn Hb; [destruct Hb|]. inversion Hn as [|? ? Hx Hr]; subst. destruct Hb as [->|Hb].
  - rewrite Nat.eqb_refl. reflexivity.
  - destruct (Nat.eqb_spec (gid x) (gid b)) as [E|E]; [|apply IH; assumption]. exfalso. apply Hx. rewrite E. apply in_map. exact Hb.
Qed.

Lemma findB_none i bs : findB i bs = None <-> ~ In i (map gid bs).
Proof.
  induction bs as [|x r IH]; cbn; [tauto|]. destruct (Nat.eqb_spec (gid x) i) as [E|E]; [split; [discriminate|tauto]|].
  rewrite IH. tauto.
Qed.

Lemma findB_grouped targets i : grouped targets i = true -> exists b, findB i targets = Some b.
Proof.
  intros H. destruct (findB i targets) as [b|] eqn:E; [eauto|]. apply findB_none in E. exfalso. apply E.
  apply grouped_in in H as (b & Hb & <-). apply in_map. exact Hb.
Qed.

(** One crossing edge and what was planned for it. *)
Definition planned targets (o : list PExport) (e : GEdge) (c : Crossing) : Prop :=
  cedge c = e /\ cfromInside c = grouped targets (gsrc e) /\
  exists op, In op o /\ pext op = cname c /\
    pdir op = (if grouped targets (gsrc e) then DOut else DIn) /\
    gid (pblk op) = (if grouped targets (gsrc e) then gsrc e else gdst e) /\
    definedPortName (portsOf (pdir op) (pblk op)) (if grouped targets (gsrc e) then gsrcPort e else gdstPort e) = Some (pint op).

(** Every export was planned for a crossing edge. *)
Definition arises targets (es : list GEdge) (op : PExport) : Prop :=
  exists e p, In e es /\ innerEnd targets e (pblk op) (pdir op) p /\ definedPortName (portsOf (pdir op) (pblk op)) p = Some (pint op).

Lemma planned_more targets o x e c : planned targets o e c -> planned targets (o ++ x) e c.
Proof.
  intros (H1 & H2 & op & H3 & H4). split; [exact H1|]. split; [exact H2|]. exists op. split; [apply in_or_app; left; exact H3|exact H4].
Qed.

Lemma plan_spec targets es : NoDup (map gid targets) -> forall ops o i c,
  plan targets ops es = Some (o, i, c) -> opsOk targets ops ->
  opsOk targets o /\ (exists x, o = ops ++ x) /\ i = filter (isInternal targets) es /\
  Forall2 (planned targets o) (filter (isCrossing targets) es) c /\
  (forall op, In op o -> In op ops \/ arises targets es op) /\
  ((forall e b d p, In e es -> innerEnd targets e b d p -> hashFree (gname b) /\ forall n, definedPortName (portsOf d b) p = Some n -> hashFree n) ->
    forall op, In op o -> In op ops \/ hashFree (pext op)).
Proof.
  intros Hn. induction es as [|e r IH]; intros ops o i c H Hok.
  - cbn in H. injection H as <- <- <-. repeat apply conj; auto. exists []. rewrite app_nil_r. reflexivity. cbn. constructor.
  - assert (Harise : forall op, arises targets r op -> arises targets (e :: r) op).
    { intros op (e0 & p & H1 & H2). exists e0, p. split; [right; exact H1|exact H2]. }
    cbn [plan] in H. cbn [filter]. unfold isInternal, isCrossing.
    destruct (grouped targets (gsrc e)) eqn:Es, (grouped targets (gdst e)) eqn:Et; cbn [andb orb xorb] in *.
    + destruct (plan targets ops r) as [[[o' i'] c']|] eqn:E; [|discriminate]. injection H as <- <- <-.
      destruct (IH _ _ _ _ E Hok) as (P1 & P2 & P3 & P4 & P5 & P6). repeat apply conj; auto.
      * rewrite P3. reflexivity.
      * intros op Ho. destruct (P5 op Ho); auto.
      * intros Hh op Ho. apply P6; [|exact Ho]. intros; eapply Hh; eauto. right; assumption.
    + destruct (findB (gsrc e) targets) as [b|] eqn:Eb; [|discriminate].
      destruct (definedPortName (portsOf DOut b) (gsrcPort e)) as [int|] eqn:Ed; [|discriminate].
      destruct (findOrCreateExport ops b DOut int) as [ops' ext] eqn:Ef.
      apply findB_some in Eb as [Hb Ei].
      destruct (findOrCreate_spec targets ops b DOut int ops' ext Hn Hok Hb Ef) as (Q1 & (x & Q2) & (op & Q3) & Q4 & Q5).
      destruct (plan targets ops' r) as [[[o' i'] c']|] eqn:E; [|discriminate]. injection H as <- <- <-.
      destruct (IH _ _ _ _ E Q1) as (P1 & (y & P2) & P3 & P4 & P5 & P6).
      assert (He : innerEnd targets e b DOut (gsrcPort e)) by (split; [exact Hb|left; auto]).
      repeat apply conj; auto.
      * exists (x ++ y). rewrite P2, Q2, app_assoc. reflexivity.
      * constructor; [|exact P4]. destruct Q3 as (Q3 & <- & Q3b & Q3c & Q3d). unfold planned. rewrite Es. cbn.
        split; [reflexivity|]. split; [reflexivity|]. exists op. rewrite Q3b, Q3c, P2.
        repeat apply conj; auto. apply in_or_app. left. exact Q3.
      * intros o Ho. destruct (P5 o Ho) as [H|H]; [|auto]. destruct (Q4 o H) as [H'|(H1 & H2 & H3)]; [auto|right].
        exists e, (gsrcPort e). rewrite H1, H2, H3. split; [left; reflexivity|]. auto.
      * intros Hh o Ho. destruct (P6 (fun e0 b0 d p Hi => Hh e0 b0 d p (or_intror Hi)) o Ho) as [H|H]; [|auto].
        destruct (Hh e b DOut (gsrcPort e) (or_introl eq_refl) He) as [Hh1 Hh2]. apply Q5; auto.
    + destruct (findB (gdst e) targets) as [b|] eqn:Eb; [|discriminate].
      destruct (definedPortName (portsOf DIn b) (gdstPort e)) as [int|] eqn:Ed; [|discriminate].
      destruct (findOrCreateExport ops b DIn int) as [ops' ext] eqn:Ef.
      apply findB_some in Eb as [Hb Ei].
      destruct (findOrCreate_spec targets ops b DIn int ops' ext Hn Hok Hb Ef) as (Q1 & (x & Q2) & (op & Q3) & Q4 & Q5).
      destruct (plan targets ops' r) as [[[o' i'] c']|] eqn:E; [|discriminate]. injection H as <- <- <-.
      destruct (IH _ _ _ _ E Q1) as (P1 & (y & P2) & P3 & P4 & P5 & P6).
      assert (He : innerEnd targets e b DIn (gdstPort e)) by (split; [exact Hb|right; auto]).
      repeat apply conj; auto.
      * exists (x ++ y). rewrite P2, Q2, app_assoc. reflexivity.
      * constructor; [|exact P4]. destruct Q3 as (Q3 & <- & Q3b & Q3c & Q3d). unfold planned. rewrite Es. cbn.
        split; [reflexivity|]. split; [reflexivity|]. exists op. rewrite Q3b, Q3c, P2.
        repeat apply conj; auto. apply in_or_app. left. exact Q3.
      * intros o Ho. destruct (P5 o Ho) as [H|H]; [|auto]. destruct (Q4 o H) as [H'|(H1 & H2 & H3)]; [auto|right].
        exists e, (gdstPort e). rewrite H1, H2, H3. split; [left; reflexivity|]. auto.
      * intros Hh o Ho. destruct (P6 (fun e0 b0 d p Hi => Hh e0 b0 d p (or_intror Hi)) o Ho) as [H|H]; [|auto].
        destruct (Hh e b DIn (gdstPort e) (or_introl eq_refl) He) as [Hh1 Hh2]. apply Q5; auto.
    + destruct (IH _ _ _ _ H Hok) as (P1 & P2 & P3 & P4 & P5 & P6). repeat apply conj; auto.
      * intros op Ho. destruct (P5 op Ho); auto.
      * intros Hh op Ho. apply P6; [|exact Ho]. intros; eapply Hh; eauto. right; assumption.
Qed.

Lemma plan_total targets es : 
  (forall e b d p, In e es -> innerEnd targets e b d p -> resolve (portsOf d b) p <> None) ->
  forall ops, plan targets ops es <> None.
Proof.
  induction es as [|e r IH]; cbn [plan]; intros He ops; [discriminate|].
  assert (Hr : forall ops, plan targets ops r <> None) by (apply IH; intros; eapply He; eauto; right; assumption).
  destruct (grouped targets (gsrc e)) eqn:Es, (grouped targets (gdst e)) eqn:Et; cbn [andb orb].
  - specialize (Hr ops). destruct (plan targets ops r) as [[[? ?] ?]|]; congruence.
  - destruct (findB_grouped _ _ Es) as [b Eb]. rewrite Eb. apply findB_some in Eb as [Hb Ei].
    assert (Hp : resolve (portsOf DOut b) (gsrcPort e) <> None).
    { apply (He e); [left; reflexivity|]. split; [exact Hb|]. left. auto. }
    destruct (resolve (portsOf DOut b) (gsrcPort e)) as [p|] eqn:Ep; [|congruence].
    destruct (defined_total _ _ _ Ep) as [n ->]. destruct (findOrCreateExport ops b DOut n) as [ops' ext].
    specialize (Hr ops'). destruct (plan targets ops' r) as [[[? ?] ?]|]; congruence.
  - destruct (findB_grouped _ _ Et) as [b Eb]. rewrite Eb. apply findB_some in Eb as [Hb Ei].
    assert (Hp : resolve (portsOf DIn b) (gdstPort e) <> None).
    { apply (He e); [left; reflexivity|]. split; [exact Hb|]. right. auto. }
    destruct (resolve (portsOf DIn b) (gdstPort e)) as [p|] eqn:Ep; [|congruence].
    destruct (defined_total _ _ _ Ep) as [n ->]. destruct (findOrCreateExport ops b DIn n) as [ops' ext].
    specialize (Hr ops'). destruct (plan targets ops' r) as [[[? ?] ?]|]; congruence.
  - apply Hr.
Qed.

(** ** The exports *)

Definition side (d : Dir) (ops : list PExport) : list PExport := filter (fun o => dirEq (pdir o) d) ops.

Definition opPort (kids : list GBlock) (o : PExport) : DPort :=
  One (pext o) (match findB (gid (pblk o)) kids with
                | Some b => match portFromName (portsOf (pdir o) b) (pint o) with Some p => p | None => 0 end
                | None => 0 end).

Definition opExport (o : PExport) : Export := mkExport (gid (pblk o)) (pint o) (pext o).

Definition exported (g : GBlock) (ops : list PExport) : GBlock :=
  GB (gid g) (gname g) (gins g ++ map (opPort (gsub g)) (side DIn ops)) (gouts g ++ map (opPort (gsub g)) (side DOut ops))
     (ggroup g) (gsub g) (gsubEdges g) (gbookIn g ++ map opExport (side DIn ops)) (gbookOut g ++ map opExport (side DOut ops)).

Lemma exportAll_result ops : forall g g', exportAll g ops = Some g' -> g' = exported g ops /\
  forall o, In o ops -> exists b p, findB (gid (pblk o)) (gsub g) = Some b /\ portFromName (portsOf (pdir o) b) (pint o) = Some p.
Proof.
  induction ops as [|o r IH]; intros g g' H; cbn [exportAll] in H.
  - injection H as <-. split; [|intros o []]. unfold exported. cbn. rewrite !app_nil_r. destruct g; reflexivity.
  - unfold exportPort in H. destruct (Bool.eqb (isExported (bookOf (pdir o) g) (gid (pblk o)) (pint o)) true); [discriminate|].
    destruct (findB (gid (pblk o)) (gsub g)) as [b|] eqn:Eb; [|discriminate].
    destruct (portFromName (portsOf (pdir o) b) (pint o)) as [p|] eqn:Ep; [|discriminate].
    apply IH in H as [-> Hr]. split.
    + assert (Hp : opPort (gsub g) o = One (pext o) p) by (unfold opPort; rewrite Eb, Ep; reflexivity).
      destruct g as [i n pi po gg k es bi bo]. unfold exported, side. cbn [filter gsub] in *.
      destruct (pdir o) eqn:Ed; cbn [dirEq withSide withIn withOut gid gname gins gouts ggroup gsub gsubEdges gbookIn gbookOut portsOf bookOf map];
        rewrite Hp, <- ?app_assoc; reflexivity.
    + intros o' [<-|Ho]; [eauto|]. destruct (Hr o' Ho) as (b' & p' & H1 & H2). exists b', p'. split; [|exact H2].
      destruct g, (pdir o); exact H1.
Qed.

Lemma isExported_app a b i s : isExported (a ++ b) i s = isExported a i s || isExported b i s.
Proof. unfold isExported. apply existsb_app. Qed.

Lemma exportAll_succeeds ops : forall g, NoDup (map opKey ops) ->
  (forall o, In o ops -> isExported (bookOf (pdir o) g) (gid (pblk o)) (pint o) = false /\
     exists b p, findB (gid (pblk o)) (gsub g) = Some b /\ portFromName (portsOf (pdir o) b) (pint o) = Some p) ->
  exists g', exportAll g ops = Some g'.
Proof.
  induction ops as [|o r IH]; intros g Hn H; cbn [exportAll]; [eauto|].
  cbn [map] in Hn. inversion Hn as [|? ? Ho Hr]; subst.
  destruct (H o (or_introl eq_refl)) as (H1 & b & p & H2 & H3). unfold exportPort. rewrite H1. cbn [Bool.eqb]. rewrite H2, H3.
  apply IH; [exact Hr|]. intros o' Ho'. destruct (H o' (or_intror Ho')) as (K1 & b' & p' & K2 & K3). split.
  - destruct g as [i n pi po gg k es bi bo].
    destruct (pdir o) eqn:Ed, (pdir o') eqn:Ed'; cbn [withSide withIn withOut bookOf gbookIn gbookOut] in *; try assumption;
      rewrite isExported_app, K1; unfold isExported; cbn [existsb orb xblk xint]; rewrite orb_false_r;
      destruct (Nat.eqb_spec (gid (pblk o)) (gid (pblk o'))) as [E1|E1]; cbn; try reflexivity;
      destruct (String.eqb_spec (pint o) (pint o')) as [E2|E2]; try reflexivity;
      exfalso; apply Ho; apply in_map_iff; exists o'; (split; [|exact Ho']); unfold opKey; rewrite Ed, Ed', E1, E2; reflexivity.
  - exists b', p'. split; [|exact K3]. destruct g, (pdir o); exact K2.
Qed.
