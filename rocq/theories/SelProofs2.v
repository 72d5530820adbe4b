(* Proofs about the selector block: levelling the counts, the combined outputs
   and the whole call. *)

From Coq Require Import Arith List Bool Relations Sorted Lia.
From Verif Require Import SelModel SelSpec SelProofs.
Import ListNotations.

Local Open Scope nat_scope.

Lemma ominl_in l x : In (Some x) l -> exists y, ominl l = Some y /\ y <= x.
Proof.
  unfold ominl. induction l as [|a l IH]; cbn; [contradiction|]. intros [ -> | H].
  - destruct (fold_right omin None l) as [y|]; cbn; eexists; split; try reflexivity; lia.
  - destruct (IH H) as (y & E & L). rewrite E. destruct a as [a|]; cbn; eexists; split; try reflexivity; lia.
Qed.

Lemma ominl_tight l y : ominl l = Some y -> In (Some y) l.
Proof.
  unfold ominl. revert y; induction l as [|a l IH]; cbn; intros y H; [discriminate|].
  destruct a as [a|]; destruct (fold_right omin None l) as [z|] eqn:E; cbn in H.
  - injection H as <-. destruct (Nat.min_dec a z) as [ -> | -> ]; [auto|]. right. apply IH. reflexivity.
  - injection H as <-. auto.
  - right. apply IH. exact H.
  - discriminate.
Qed.

Lemma setAll_at n is : forall (f : counts) i,
  setAll n is f i = if existsb (Nat.eqb i) is then n else f i.
Proof.
  unfold setAll. induction is as [|a is IH]; intros f i; [reflexivity|].
  cbn [fold_left existsb]. rewrite IH.
  destruct (existsb (Nat.eqb i) is) eqn:E; [rewrite orb_true_r; reflexivity|].
  rewrite orb_false_r. unfold upd. destruct (i =? a); reflexivity.
Qed.

Lemma omin_idem a b : omin (omin a b) b = omin a b.
Proof. destruct a, b; cbn; try reflexivity; f_equal; lia. Qed.

Lemma lowerAll_at n is : forall (f : counts) i,
  lowerAll n is f i = if existsb (Nat.eqb i) is then omin (f i) n else f i.
Proof.
  unfold lowerAll. induction is as [|a is IH]; intros f i; [reflexivity|].
  cbn [fold_left existsb]. rewrite IH. unfold upd.
  destruct (i =? a) eqn:Ea; cbn [orb].
  - apply Nat.eqb_eq in Ea; subst a.
    destruct (existsb (Nat.eqb i) is); [apply omin_idem|reflexivity].
  - reflexivity.
Qed.

Section Sync.

Context {A T : Type}.
Variable c : call A T.
Variable ps : list (nat * nat).
Variable oi : imap.

Hypothesis oiOk : forall g, In g oi -> snd g = sources ps (fst g) /\ snd g <> [].

Definition bnd (g : nat * list nat) : option nat := groupAvail c (fst g) (snd g).

Lemma bnd_some g : exists b, bnd g = Some b.
Proof.
  unfold bnd, groupAvail.
  destruct (ominl (map (fun i => Some (avail c i)) (snd g))) as [x|];
    destruct (existsb (isSel c) (snd g)); cbn; eexists; reflexivity.
Qed.

Definition inSome (i : nat) : Prop := exists g, In g oi /\ In i (snd g).

Lemma same_group_linked g i j : In g oi -> In i (snd g) -> In j (snd g) -> linked ps i j.
Proof.
  intros Hg Hi Hj. destruct (oiOk g Hg) as [E _]. rewrite E in *.
  apply rt_step. exists (fst g). split; apply in_sources; assumption.
Qed.

(* what holds of the counts from the first loop on *)
Definition Inv (f : counts) : Prop :=
  (forall i, inSome i -> exists n, f i = Some n
     /\ (exists j g, linked ps i j /\ In g oi /\ In j (snd g) /\ bnd g = Some n)
     /\ (forall g b, In g oi -> In i (snd g) -> bnd g = Some b -> n <= b))
  /\ (forall i, ~ inSome i -> f i = None).

Lemma firstCounts_part : forall l (f : counts) (P : list (nat * list nat)),
  (forall g, In g l -> In g oi) ->
  (forall i, (forall g b, In g P -> In i (snd g) -> bnd g = Some b -> exists n, f i = Some n /\ n <= b)
     /\ (forall n, f i = Some n -> exists g, In g P /\ In i (snd g) /\ bnd g = Some n)) ->
  forall i, let f' := fold_left (fun f g => lowerAll (groupAvail c (fst g) (snd g)) (snd g) f) l f in
     (forall g b, In g (P ++ l) -> In i (snd g) -> bnd g = Some b -> exists n, f' i = Some n /\ n <= b)
     /\ (forall n, f' i = Some n -> exists g, In g (P ++ l) /\ In i (snd g) /\ bnd g = Some n).
Proof.
  induction l as [|g l IH]; intros f P Hl H i.
  - cbn. rewrite app_nil_r. apply H.
  - cbn [fold_left]. replace (P ++ g :: l) with ((P ++ [g]) ++ l) by (rewrite <- app_assoc; reflexivity).
    apply IH; [intros; apply Hl; right; assumption|]. clear i. intros i.
    destruct (H i) as [H1 H2]. rewrite lowerAll_at. fold (bnd g).
    destruct (bnd_some g) as [bg Ebg]. split.
    + intros h b Hh Hi Eb. destruct (existsb (Nat.eqb i) (snd g)) eqn:E.
      * rewrite Ebg. apply in_app_iff in Hh. destruct Hh as [Hh|[ <- |[]]].
        -- destruct (H1 h b Hh Hi Eb) as (n & E1 & L). rewrite E1. cbn. eexists; split; [reflexivity|lia].
        -- rewrite Eb in Ebg. injection Ebg as <-. destruct (f i) as [n|]; cbn; eexists; split; try reflexivity; lia.
      * apply in_app_iff in Hh. destruct Hh as [Hh|[ <- |[]]].
        -- apply (H1 h b Hh Hi Eb).
        -- exfalso. apply (feeds_in i g) in Hi. unfold feeds in Hi. congruence.
    + intros n En. destruct (existsb (Nat.eqb i) (snd g)) eqn:E.
      * rewrite Ebg in En. destruct (f i) as [m|] eqn:Ef; cbn in En; injection En as <-.
        -- destruct (Nat.min_dec m bg) as [ -> | -> ].
           ++ destruct (H2 m eq_refl) as (h & Q1 & Q2 & Q3). exists h. rewrite in_app_iff. auto.
           ++ exists g. rewrite in_app_iff. split; [right; left; reflexivity|]. split; [|exact Ebg].
              apply (feeds_in i g). exact E.
        -- exists g. rewrite in_app_iff. split; [right; left; reflexivity|]. split; [|exact Ebg].
           apply (feeds_in i g). exact E.
      * destruct (H2 n En) as (h & Q1 & Q2 & Q3). exists h. rewrite in_app_iff. auto.
Qed.

Lemma firstCounts_inv : Inv (firstCounts c oi).
Proof.
  assert (H : forall i : nat, (forall g b, In g [] -> In i (snd g) -> bnd g = Some b -> exists n, (None : option nat) = Some n /\ n <= b)
     /\ (forall n, (None : option nat) = Some n -> exists g, In g ([] : imap) /\ In i (snd g) /\ bnd g = Some n)).
  { intros i; split; [intros ? ? []|discriminate]. }
  pose proof (firstCounts_part oi (fun _ => None) [] (fun g Hg => Hg) H) as F. cbn zeta in F.
  fold (firstCounts c oi) in F. cbn [app] in F. split.
  - intros i (g & Hg & Hi). destruct (bnd_some g) as [b Eb].
    destruct (F i) as [F1 F2]. destruct (F1 g b Hg Hi Eb) as (n & En & L).
    exists n. split; [exact En|]. split.
    + destruct (F2 n En) as (h & Q1 & Q2 & Q3). exists i, h. split; [apply rt_refl|]. auto.
    + intros h b' Hh Hih Eb'. destruct (F1 h b' Hh Hih Eb') as (n' & En' & L').
      rewrite En in En'. injection En' as <-. exact L'.
  - intros i Hi. destruct (firstCounts c oi i) as [n|] eqn:E; [|reflexivity].
    exfalso. destruct (F i) as [_ F2]. destruct (F2 n E) as (h & Q1 & Q2 & _). apply Hi. exists h; auto.
Qed.

Definition levelled (f : counts) (g : nat * list nat) : Prop :=
  forall i j, In i (snd g) -> In j (snd g) -> f i = f j.

Lemma levelGroup_inv g f b f' b' : In g oi -> Inv f -> levelGroup g (f, b) = (f', b') ->
  Inv f' /\ (forall i, cnt f' i <= cnt f i)
  /\ (b' = false -> b = false /\ (forall i, f' i = f i) /\ levelled f g)
  /\ (b' = true -> b = true \/ exists i, inSome i /\ cnt f' i < cnt f i).
Proof.
  intros Hg [I1 I2] H. unfold levelGroup in H. cbn [fst snd] in H. injection H as <- <-.
  set (cur := ominl (map f (snd g))).
  assert (Hcur : exists m, cur = Some m /\ (exists k, In k (snd g) /\ f k = Some m)
                 /\ forall i n, In i (snd g) -> f i = Some n -> m <= n).
  { destruct (oiOk g Hg) as [_ Hne]. destruct (snd g) as [|k is] eqn:Eg; [congruence|].
    destruct (I1 k) as (n & En & _); [exists g; split; [exact Hg|rewrite Eg; left; reflexivity]|].
    assert (Hin : In (Some n) (map f (k :: is))) by (rewrite <- En; apply in_map; left; reflexivity).
    destruct (ominl_in _ _ Hin) as (m & Em & L). exists m. split; [exact Em|]. split.
    - apply ominl_tight in Em. apply in_map_iff in Em. destruct Em as (x & Ex & Hx). exists x; auto.
    - intros i n' Hi En'. assert (Hin' : In (Some n') (map f (k :: is))) by (rewrite <- En'; apply in_map; exact Hi).
      destruct (ominl_in _ _ Hin') as (m' & Em' & L'). unfold cur in *. rewrite Em in Em'. injection Em' as <-. exact L'. }
  destruct Hcur as (m & Em & (k & Hk & Ek) & Hm). rewrite Em.
  assert (Hle : forall i, cnt (setAll (Some m) (snd g) f) i <= cnt f i).
  { intros i. unfold cnt. rewrite setAll_at. destruct (existsb (Nat.eqb i) (snd g)) eqn:E; [|lia].
    apply (feeds_in i g) in E. destruct (I1 i) as (n & En & _); [exists g; auto|].
    rewrite En. exact (Hm i n E En). }
  split; [|split; [exact Hle|split]].
  - split.
    + intros i Hi. rewrite setAll_at. destruct (existsb (Nat.eqb i) (snd g)) eqn:E; [|apply I1; exact Hi].
      apply (feeds_in i g) in E. exists m. split; [reflexivity|]. split.
      * destruct (I1 k) as (n & En & (j & h & L & Q) & _); [exists g; auto|].
        rewrite Ek in En. injection En as <-. exists j, h. split; [|exact Q].
        eapply rt_trans; [|exact L]. eapply same_group_linked; eassumption.
      * intros h b' Hh Hih Eb. destruct (I1 i Hi) as (n & En & _ & B).
        specialize (B h b' Hh Hih Eb). specialize (Hm i n E En). lia.
    + intros i Hi. rewrite setAll_at. destruct (existsb (Nat.eqb i) (snd g)) eqn:E; [|apply I2; exact Hi].
      exfalso. apply Hi. exists g. split; [exact Hg|]. apply (feeds_in i g). exact E.
  - intros E. apply orb_false_iff in E. destruct E as [E1 E2]. split; [exact E1|].
    assert (Hall : forall i, In i (snd g) -> f i = Some m).
    { intros i Hi. destruct (I1 i) as (n & En & _); [exists g; auto|].
      assert (Hab : above (f i) (Some m) = false).
      { apply not_true_is_false. intros Hab. assert (existsb (fun i => above (f i) (Some m)) (snd g) = true).
        { apply existsb_exists. exists i; auto. } congruence. }
      rewrite En in *. cbn in Hab. apply Nat.ltb_ge in Hab. f_equal. specialize (Hm i n Hi En). lia. }
    split.
    + intros i. rewrite setAll_at. destruct (existsb (Nat.eqb i) (snd g)) eqn:E; [|reflexivity].
      symmetry. apply Hall. apply (feeds_in i g). exact E.
    + intros i j Hi Hj. rewrite !Hall by assumption. reflexivity.
  - intros E. apply orb_true_iff in E. destruct E as [E|E]; [auto|]. right.
    apply existsb_exists in E. destruct E as (i & Hi & Ha). exists i. split; [exists g; auto|].
    destruct (I1 i) as (n & En & _); [exists g; auto|]. rewrite En in Ha. cbn in Ha. apply Nat.ltb_lt in Ha.
    apply (feeds_in i g) in Hi. unfold feeds in Hi.
    unfold cnt. rewrite setAll_at, Hi, En. exact Ha.
Qed.

Lemma levelPass_inv : forall l f b f' b', (forall g, In g l -> In g oi) -> Inv f ->
  fold_left (fun st g => levelGroup g st) l (f, b) = (f', b') ->
  Inv f' /\ (forall i, cnt f' i <= cnt f i)
  /\ (b' = false -> b = false /\ (forall i, f' i = f i) /\ forall g, In g l -> levelled f g)
  /\ (b' = true -> b = true \/ exists i, inSome i /\ cnt f' i < cnt f i).
Proof.
  induction l as [|g l IH]; intros f b f' b' Hl I H.
  - cbn in H. injection H as <- <-. split; [exact I|]. split; [lia|]. split; [|auto].
    intros; split; [assumption|]. split; [reflexivity|]. intros ? [].
  - cbn [fold_left] in H. destruct (levelGroup g (f, b)) as [f1 b1] eqn:E1.
    destruct (levelGroup_inv g f b f1 b1 (Hl g (or_introl eq_refl)) I E1) as (J1 & J2 & J3 & J4).
    destruct (IH f1 b1 f' b' (fun h Hh => Hl h (or_intror Hh)) J1 H) as (K1 & K2 & K3 & K4).
    split; [exact K1|]. split; [intros i; specialize (J2 i); specialize (K2 i); lia|]. split.
    + intros Eb. destruct (K3 Eb) as (L1 & L2 & L3). destruct (J3 L1) as (M1 & M2 & M3).
      split; [exact M1|]. split; [intros i; rewrite L2; apply M2|].
      intros h [ <- | Hh]; [exact M3|]. intros i j Hi Hj. rewrite <- !M2. apply (L3 h Hh); assumption.
    + intros Eb. destruct (K4 Eb) as [L|(i & Hi & L)].
      * destruct (J4 L) as [M|(i & Hi & M)]; [auto|]. right; exists i. split; [exact Hi|]. specialize (K2 i). lia.
      * right; exists i. split; [exact Hi|]. specialize (J2 i). lia.
Qed.

Definition sumCnt (n : nat) (f : counts) : nat := fold_right (fun i a => cnt f i + a) 0 (seq 0 n).

Lemma levelFuel_sum n f : levelFuel n f = S (sumCnt n f).
Proof.
  unfold levelFuel, sumCnt. f_equal. generalize (seq 0 n). induction l as [|i l IH]; cbn; [reflexivity|].
  rewrite IH. unfold cnt. destruct (f i); reflexivity.
Qed.

Lemma sumCnt_le n f f' : (forall i, cnt f' i <= cnt f i) -> sumCnt n f' <= sumCnt n f.
Proof.
  intros H. unfold sumCnt. generalize (seq 0 n). induction l as [|i l IH]; cbn; [lia|]. specialize (H i). lia.
Qed.

Lemma sumCnt_lt n f f' i : i < n -> (forall i, cnt f' i <= cnt f i) -> cnt f' i < cnt f i ->
  sumCnt n f' < sumCnt n f.
Proof.
  intros Hi H L. unfold sumCnt. assert (Hin : In i (seq 0 n)) by (apply in_seq; lia).
  revert Hin. generalize (seq 0 n). induction l as [|j l IH]; cbn; [contradiction|].
  intros [ -> | Hin].
  - assert (fold_right (fun i a => cnt f' i + a) 0 l <= fold_right (fun i a => cnt f i + a) 0 l).
    { clear IH. induction l as [|j l IH]; cbn; [lia|]. pose proof (H j). lia. }
    lia.
  - specialize (IH Hin). pose proof (H j). lia.
Qed.

Variable N : nat.
Hypothesis below : forall i, inSome i -> i < N.

Lemma levelLoop_ends : forall fuel f, Inv f -> sumCnt N f < fuel ->
  exists f', levelLoop fuel oi f = Some f' /\ Inv f' /\ forall g, In g oi -> levelled f' g.
Proof.
  induction fuel as [|fuel IH]; intros f I L; [lia|].
  cbn [levelLoop]. destruct (levelPass oi f) as [f' b] eqn:E. unfold levelPass in E.
  destruct (levelPass_inv oi f false f' b (fun g Hg => Hg) I E) as (J1 & J2 & J3 & J4).
  destruct b.
  - destruct (J4 eq_refl) as [F|(i & Hi & Lt)]; [discriminate|].
    apply IH; [exact J1|]. pose proof (sumCnt_lt N f f' i (below i Hi) J2 Lt). lia.
  - destruct (J3 eq_refl) as (_ & K1 & K2). exists f'. split; [reflexivity|]. split; [exact J1|].
    intros g Hg i j Hi Hj. rewrite !K1. apply (K2 g Hg); assumption.
Qed.

(* linked inputs have one count *)
Hypothesis oiAll : forall i o, In (i, o) ps -> In (o, sources ps o) oi.

Lemma linked_equal f : (forall g, In g oi -> levelled f g) -> forall i j, linked ps i j -> f i = f j.
Proof.
  intros H i j L. induction L as [i j (o & H1 & H2)|i|i j k _ IH1 _ IH2].
  - apply (H (o, sources ps o)); [eapply oiAll; eassumption| |]; apply in_sources; assumption.
  - reflexivity.
  - congruence.
Qed.

(* ---------- rows ---------- *)

Lemma putOne_ok iS i out : tagsInside out -> iS < avail c i ->
  exists out' x, putOne c iS i out = Some out' /\ tagsInside out'
    /\ nth_error (annot (inAt c i)) iS = Some x /\ annot out' = annot out ++ [x].
Proof.
  intros Ho Hi. unfold putOne. unfold avail in Hi.
  destruct (nth_error (smp (inAt c i)) iS) as [y|] eqn:E; [|apply nth_error_None in E; lia].
  eexists; eexists. split; [reflexivity|]. split; [|split].
  - unfold tagsInside; cbn [smp tgs]. rewrite app_length; cbn. apply Forall_app. split.
    + eapply Forall_impl; [|exact Ho]. cbn; intros; lia.
    + rewrite Forall_map. apply Forall_forall. intros t _. cbn. lia.
  - unfold annot.
    instantiate (1 := (y, map snd (filter (fun t => fst t =? iS) (tgs (inAt c i))))).
    assert (G : forall (l : list A) k n, nth_error l n = Some y ->
       nth_error (annotFrom k l (tgs (inAt c i))) n
       = Some (y, map snd (filter (fun t => fst t =? k + n) (tgs (inAt c i))))).
    { clear. induction l as [|a l IH]; intros k [|n] H; cbn in *; try discriminate.
      - injection H as ->. rewrite Nat.add_0_r. reflexivity.
      - rewrite (IH (S k) n H). rewrite Nat.add_succ_r. reflexivity. }
    apply (G _ 0 iS E).
  - unfold annot; cbn [smp tgs]. rewrite annotFrom_app. f_equal.
    + apply annotFrom_ext. intros j Hj. rewrite filter_app, map_app.
      rewrite (filter_none _ (map _ _)); [cbn; apply app_nil_r|].
      intros [p t] Hin. apply in_map_iff in Hin. destruct Hin as (q & Eq & _). injection Eq as <- <-.
      cbn [fst]. apply Nat.eqb_neq. lia.
    + cbn [annotFrom Nat.add]. f_equal. f_equal.
      rewrite filter_app, map_app. rewrite (filter_none _ (tgs out)).
      * cbn [map app]. generalize (filter (fun t => fst t =? iS) (tgs (inAt c i))).
        induction l as [|t l IH]; cbn [map filter]; [reflexivity|].
        cbn [fst]. rewrite Nat.eqb_refl. cbn [map snd]. f_equal. apply IH.
      * intros t Ht. unfold tagsInside in Ho. rewrite Forall_forall in Ho. specialize (Ho _ Ht).
        apply Nat.eqb_neq. lia.
Qed.

Definition row (iS : nat) (is : list nat) : list (A * list T) :=
  flat_map (fun l => match nth_error l iS with Some x => [x] | None => [] end)
           (map (fun i => annot (inAt c i)) is).

Lemma putRow_ok cap iS : forall is out, tagsInside out ->
  (forall i, In i is -> iS < avail c i) -> length (smp out) + length is <= cap ->
  exists out', putRow c cap iS is out = Some out' /\ tagsInside out'
    /\ annot out' = annot out ++ row iS is /\ length (smp out') = length (smp out) + length is.
Proof.
  induction is as [|i is IH]; intros out Ho Ha Hc.
  - exists out. cbn. rewrite app_nil_r. auto.
  - cbn [putRow length] in *. rewrite (proj2 (Nat.ltb_lt _ _)) by lia.
    destruct (putOne_ok iS i out Ho (Ha i (or_introl eq_refl))) as (out1 & x & E1 & T1 & X1 & A1).
    rewrite E1.
    assert (L1 : length (smp out1) = S (length (smp out))).
    { rewrite <- annot_length, A1, app_length, annot_length. cbn. lia. }
    destruct (IH out1 T1 (fun j Hj => Ha j (or_intror Hj)) ltac:(lia)) as (out2 & E2 & T2 & A2 & L2).
    exists out2. split; [exact E2|]. split; [exact T2|]. split; [|lia].
    rewrite A2, A1, <- app_assoc. unfold row. cbn [map flat_map]. rewrite X1. reflexivity.
Qed.

Lemma putRows_ok cap is : forall k iS out, tagsInside out ->
  (forall i, In i is -> iS + k <= avail c i) -> length (smp out) + k * length is <= cap ->
  exists out', putRows c cap iS k is out = Some out' /\ tagsInside out'
    /\ annot out' = annot out ++ flat_map (fun j => row j is) (seq iS k).
Proof.
  induction k as [|k IH]; intros iS out Ho Ha Hc.
  - exists out. cbn. rewrite app_nil_r. auto.
  - cbn [putRows]. cbn in Hc.
    destruct (putRow_ok cap iS is out Ho) as (out1 & E1 & T1 & A1 & L1).
    { intros i Hi. specialize (Ha i Hi). lia. }
    { lia. }
    rewrite E1. destruct (IH (S iS) out1 T1) as (out2 & E2 & T2 & A2).
    { intros i Hi. specialize (Ha i Hi). lia. }
    { lia. }
    exists out2. split; [exact E2|]. split; [exact T2|]. rewrite A2, A1, <- app_assoc. reflexivity.
Qed.

(* a row that was written did not leave a span *)
Lemma putRow_len cap iS : forall is out out', putRow c cap iS is out = Some out' ->
  length (smp out') = length (smp out) + length is.
Proof.
  induction is as [|i is IH]; intros out out' H; cbn [putRow length] in *.
  - injection H as <-. lia.
  - destruct (length (smp out) <? cap); [|discriminate].
    destruct (putOne c iS i out) as [o1|] eqn:E; [|discriminate].
    rewrite (IH _ _ H). unfold putOne in E. destruct (nth_error _ _); [|discriminate].
    injection E as <-. cbn. rewrite app_length. cbn. lia.
Qed.

Lemma putRows_len cap is : forall k iS out out', putRows c cap iS k is out = Some out' ->
  length (smp out') = length (smp out) + k * length is.
Proof.
  induction k as [|k IH]; intros iS out out' H; cbn [putRows] in *.
  - injection H as <-. lia.
  - destruct (putRow c cap iS is out) as [o1|] eqn:E; [|discriminate].
    rewrite (IH _ _ _ H), (putRow_len _ _ _ _ _ E). lia.
Qed.

(* ---------- all outputs ---------- *)

Lemma syncOutputs_some f : forall l outs outs', keysOk l ->
  syncOutputs c f l outs = Some outs' ->
  (forall o, ~ In o (map fst l) -> outs' o = outs o)
  /\ (forall g, In g l -> syncOutput c f g = Some (outs' (fst g))).
Proof.
  induction l as [|g l IH]; intros outs outs' Hk H; cbn [syncOutputs] in H.
  - injection H as <-. split; [auto|contradiction].
  - apply keysOk_cons in Hk. destruct Hk as [Hk Hlt].
    destruct (syncOutput c f g) as [o|] eqn:E; [|discriminate].
    destruct (IH _ _ Hk H) as [H1 H2].
    assert (Hng : ~ In (fst g) (map fst l)).
    { intros Hin. apply in_map_iff in Hin. destruct Hin as (h & Eh & Hh).
      rewrite Forall_forall in Hlt. specialize (Hlt _ Hh). lia. }
    split.
    + intros p Hp. cbn in Hp. rewrite H1 by tauto. apply upd_other. intuition.
    + intros h [ <- | Hh]; [|auto]. rewrite E, H1 by assumption. rewrite upd_same. reflexivity.
Qed.

Lemma syncOutputs_total f : forall l outs, (forall g, In g l -> exists o, syncOutput c f g = Some o) ->
  exists outs', syncOutputs c f l outs = Some outs'.
Proof.
  induction l as [|g l IH]; intros outs H; cbn [syncOutputs]; [eauto|].
  destruct (H g (or_introl eq_refl)) as [o ->]. apply IH. intros; apply H; right; assumption.
Qed.

Lemma syncOutputs_none f : forall l outs g, In g l -> syncOutput c f g = None ->
  syncOutputs c f l outs = None.
Proof.
  induction l as [|h l IH]; intros outs g Hg E; [contradiction|]. cbn [syncOutputs].
  destruct Hg as [ -> | Hg]; [rewrite E; reflexivity|].
  destruct (syncOutput c f h); [|reflexivity]. eapply IH; eassumption.
Qed.

End Sync.
