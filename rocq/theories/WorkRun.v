(** The work loop against the reference semantics: invariant and run lemmas. *)
From Coq Require Import List NArith ZArith Lia Bool.
From Coq Require Import ZifyBool ZifyNat ZifyN.
From Verif Require Import WorkModel WorkSpec WorkProofs.
Import ListNotations.
Local Open Scope N_scope.

(* ------------------------------------------------------------------ lists *)

Lemma nlen_takeN {X} n (l : list X) : nlen (takeN n l) = N.min n (nlen l).
Proof. unfold nlen, takeN. rewrite firstn_length. lia. Qed.

Lemma nlen_dropN {X} n (l : list X) : nlen (dropN n l) = nlen l - n.
Proof. unfold nlen, dropN. rewrite skipn_length. lia. Qed.

Lemma nlen_app {X} (a b : list X) : nlen (a ++ b) = nlen a + nlen b.
Proof. unfold nlen. rewrite app_length. lia. Qed.

Lemma dropN_0 {X} (l : list X) : dropN 0 l = l.
Proof. reflexivity. Qed.

Lemma skipn_skipn_add {X} (a b : nat) (l : list X) : skipn a (skipn b l) = skipn (b + a) l.
Proof. revert l; induction b as [|b IH]; intros [|x l]; cbn [skipn Nat.add]; auto. apply skipn_nil. Qed.

Lemma dropN_dropN {X} a b (l : list X) : dropN a (dropN b l) = dropN (b + a) l.
Proof. unfold dropN. rewrite skipn_skipn_add. f_equal. lia. Qed.

Lemma takeN_all {X} n (l : list X) : nlen l <= n -> takeN n l = l.
Proof. unfold nlen, takeN. intros. apply firstn_all2. lia. Qed.

Lemma takeN_takeN {X} a b (l : list X) : takeN a (takeN b l) = takeN (N.min a b) l.
Proof. unfold takeN. rewrite firstn_firstn. f_equal. lia. Qed.

Lemma dropN_takeN {X} a b (l : list X) : dropN a (takeN b l) = takeN (b - a) (dropN a l).
Proof. unfold takeN, dropN. rewrite skipn_firstn_comm. f_equal. lia. Qed.

Lemma takeN_app {X} n (a b : list X) : n <= nlen a -> takeN n (a ++ b) = takeN n a.
Proof.
  unfold takeN, nlen; intros. rewrite firstn_app.
  replace (N.to_nat n - length a)%nat with 0%nat by lia. rewrite firstn_O. apply app_nil_r.
Qed.

Lemma dropN_app {X} n (a b : list X) : n <= nlen a -> dropN n (a ++ b) = dropN n a ++ b.
Proof.
  unfold dropN, nlen; intros. rewrite skipn_app.
  replace (N.to_nat n - length a)%nat with 0%nat by lia. reflexivity.
Qed.

Lemma map_id_ext {X} (f : X -> X) l : (forall x, In x l -> f x = x) -> map f l = l.
Proof. intros H. rewrite <- (map_id l) at 2. apply map_ext_in. exact H. Qed.

Lemma length_addAt {X} i (xs : list X) l : length (addAt i xs l) = length l.
Proof. revert i; induction l as [|q l IH]; intros [|i]; cbn [addAt length]; auto. Qed.

Lemma map_addAt {X Y} (f : list X -> list Y) i xs (l : list (list X)) ys :
  (forall q, nth_error l i = Some q -> f (q ++ xs) = f q ++ ys) ->
  map f (addAt i xs l) = addAt i ys (map f l).
Proof.
  revert i; induction l as [|q l IH]; intros [|i] H; cbn [addAt map]; auto.
  - rewrite (H q eq_refl). reflexivity.
  - f_equal. apply IH. intros q' Hq. apply H. exact Hq.
Qed.

Lemma map_addAt_same {X Y} (f : list X -> Y) i xs (l : list (list X)) :
  (forall q, nth_error l i = Some q -> f (q ++ xs) = f q) ->
  map f (addAt i xs l) = map f l.
Proof.
  revert i; induction l as [|q l IH]; intros [|i] H; cbn [addAt map]; auto.
  - rewrite (H q eq_refl). reflexivity.
  - f_equal. apply IH. intros q' Hq. apply H. exact Hq.
Qed.

Lemma Forall_addAt {X} (P : list X -> Prop) i xs l :
  Forall P l -> (forall q, nth_error l i = Some q -> P (q ++ xs)) -> Forall P (addAt i xs l).
Proof.
  intros H. revert i; induction H as [|q l Hq Hl IH]; intros [|i] Hx; cbn [addAt]; constructor; auto.
Qed.

Lemma In_addAt {X} i (xs : list X) l q x :
  In q (addAt i xs l) -> In x q -> (exists q', In q' l /\ In x q') \/ In x xs.
Proof.
  revert i; induction l as [|q0 l IH]; intros [|i] H Hx; cbn [addAt In] in *; try tauto.
  - destruct H as [<-|H].
    + apply in_app_or in Hx as [Hx|Hx]; [left; exists q0; auto|right; exact Hx].
    + left; exists q; auto.
  - destruct H as [<-|H]; [left; exists q0; auto|].
    destruct (IH _ H Hx) as [(q' & H1 & H2)|H1]; [left; exists q'; auto|right; exact H1].
Qed.

Lemma In_addAt_old {X} i (xs : list X) l q x : In q l -> In x q -> exists q', In q' (addAt i xs l) /\ In x q'.
Proof.
  revert i; induction l as [|q0 l IH]; intros [|i] H Hx; cbn [addAt In] in *; try tauto.
  - destruct H as [<-|H]; [exists (q0 ++ xs); split; [auto|apply in_or_app; auto]|exists q; auto].
  - destruct H as [<-|H]; [exists q0; auto|].
    destruct (IH i H Hx) as (q' & H1 & H2). exists q'; auto.
Qed.

Lemma nth_error_nth' {X} (l : list X) i x d : nth_error l i = Some x -> nth i l d = x.
Proof. revert i; induction l as [|y l IH]; intros [|i] H; cbn in *; try discriminate; [congruence|auto]. Qed.

Lemma zipApp_len {X} (a b : list (list X)) : length (zipApp a b) = length a.
Proof. revert b; induction a as [|x a IH]; intros [|y b]; cbn [zipApp length]; auto. Qed.

Lemma zipApp_assoc {X} (a b d : list (list X)) :
  length a = length b -> length b = length d -> zipApp (zipApp a b) d = zipApp a (zipApp b d).
Proof.
  revert b d; induction a as [|x a IH]; intros [|y b] [|z d] H1 H2; cbn [zipApp length] in *; try discriminate; auto.
  f_equal; [symmetry; apply app_assoc|apply IH; lia].
Qed.

Lemma zipApp_nil_l {X Y} (l : list Y) (b : list (list X)) : length b = length l -> zipApp (map (fun _ => []) l) b = b.
Proof.
  revert b; induction l as [|y l IH]; intros [|x b] H; cbn [zipApp map length] in *; try discriminate; auto.
  f_equal. apply IH. lia.
Qed.

Lemma zipApp_nil_r {X Y} (l : list Y) (a : list (list X)) : length a = length l -> zipApp a (map (fun _ => []) l) = a.
Proof.
  revert a; induction l as [|y l IH]; intros [|x a] H; cbn [zipApp map length] in *; try discriminate; auto.
  rewrite app_nil_r. f_equal. apply IH. lia.
Qed.

Lemma Forall_zipApp {X} (a b : list (list X)) n m :
  length a = length b -> Forall (fun o => nlen o = n) a -> Forall (fun o => nlen o = m) b ->
  Forall (fun o => nlen o = n + m) (zipApp a b).
Proof.
  revert b; induction a as [|x a IH]; intros [|y b] Hl Ha Hb; cbn [zipApp length] in *; try discriminate; constructor.
  - rewrite nlen_app. inversion Ha; inversion Hb; subst; lia.
  - apply IH; [lia|inversion Ha; auto|inversion Hb; auto].
Qed.

(* ------------------------------------------------------------------ tags *)

Lemma takeTags_filter {T} lim (ts : list (tag T)) :
  ascending ts -> takeTags lim ts = filter (fun t => tIdx t <? lim) ts.
Proof.
  induction ts as [|t ts IH]; [reflexivity|]. cbn [ascending takeTags filter]. intros [H1 H2].
  destruct (N.ltb_spec (tIdx t) lim); [f_equal; auto|].
  symmetry. rewrite Forall_forall in H1.
  assert (E : forall l : list (tag T), (forall x, In x l -> lim <= tIdx x) -> filter (fun t => tIdx t <? lim) l = []).
  { clear. induction l as [|x l IH]; intros H; [reflexivity|]. cbn [filter].
    destruct (N.ltb_spec (tIdx x) lim); [specialize (H x (or_introl eq_refl)); lia|]. apply IH. intros; apply H; right; auto. }
  apply E. intros x Hx. specialize (H1 x Hx). lia.
Qed.

Lemma filter_all {X} (f : X -> bool) l : (forall x, In x l -> f x = true) -> filter f l = l.
Proof.
  induction l as [|x l IH]; intros H; [reflexivity|]. cbn [filter]. rewrite (H x (or_introl eq_refl)).
  f_equal. apply IH. intros; apply H; right; auto.
Qed.

Lemma filter_none {X} (f : X -> bool) l : (forall x, In x l -> f x = false) -> filter f l = [].
Proof.
  induction l as [|x l IH]; intros H; [reflexivity|]. cbn [filter]. rewrite (H x (or_introl eq_refl)).
  apply IH. intros; apply H; right; auto.
Qed.

Lemma filter_filter' {X} (f g : X -> bool) l : filter f (filter g l) = filter (fun x => g x && f x) l.
Proof.
  induction l as [|x l IH]; [reflexivity|]. cbn [filter]. destruct (g x); cbn [filter andb]; [|exact IH].
  destruct (f x); [f_equal|]; exact IH.
Qed.

Lemma dropTags_filter {T} lim (ts : list (tag T)) :
  ascending ts -> dropTags lim ts = filter (fun t => negb (tIdx t <? lim)) ts.
Proof.
  induction ts as [|t ts IH]; [reflexivity|]. cbn [ascending dropTags filter]. intros [H1 H2].
  destruct (N.ltb_spec (tIdx t) lim); cbn [negb]; [auto|]. f_equal.
  symmetry. apply filter_all. intros x Hx. rewrite Forall_forall in H1. specialize (H1 x Hx). lia.
Qed.

Lemma ascending_filter {T} (f : tag T -> bool) ts : ascending ts -> ascending (filter f ts).
Proof.
  induction ts as [|t ts IH]; [auto|]. cbn [ascending filter]. intros [H1 H2]. destruct (f t); [|auto].
  cbn [ascending]. split; [|auto]. rewrite Forall_forall in *. intros x Hx. apply H1. apply filter_In in Hx. tauto.
Qed.

Lemma ascending_app_l {T} (a b : list (tag T)) : ascending (a ++ b) -> ascending a.
Proof.
  induction a as [|t a IH]; [constructor|]. cbn [ascending app]. intros [H1 H2]. split; [|auto].
  rewrite Forall_forall in *. intros x Hx. apply H1, in_or_app; auto.
Qed.

Lemma distTo_le {T} p off pos (ts : list (tag T)) t :
  ascending ts -> In t ts -> pos + off <= tIdx t -> p t = true -> distTo p off pos ts <= tIdx t - pos.
Proof.
  unfold distTo. induction ts as [|x ts IH]; [cbn [In]; tauto|]. cbn [ascending In find]. intros [H1 H2] Hin Hge Hp.
  destruct ((pos + off <=? tIdx x) && p x) eqn:E.
  - destruct Hin as [->|Hin]; [lia|]. rewrite Forall_forall in H1. specialize (H1 t Hin). lia.
  - destruct Hin as [->|Hin]; [lia|]. auto.
Qed.

Lemma distTo_ge {T} p off pos (ts : list (tag T)) : off <= umax -> off <= distTo p off pos ts.
Proof.
  intros Ho. unfold distTo. destruct (find (fun t => (pos + off <=? tIdx t) && p t) ts) eqn:E; [|lia].
  apply find_some in E as [_ E]. lia.
Qed.

Lemma distTo_some {T} p off pos (ts : list (tag T)) :
  distTo p off pos ts < umax -> exists t, In t ts /\ pos + off <= tIdx t /\ p t = true /\ distTo p off pos ts = tIdx t - pos.
Proof.
  unfold distTo. destruct (find (fun t => (pos + off <=? tIdx t) && p t) ts) as [t|] eqn:E; [|lia].
  intros _. apply find_some in E as [Hin E]. exists t. repeat split; auto; lia.
Qed.

Lemma nextTagOf_le {T} pos (tss : list (list (tag T))) ts t :
  Forall ascending tss -> In ts tss -> In t ts -> pos < tIdx t -> nextTagOf pos tss <= tIdx t - pos.
Proof.
  induction tss as [|x tss IH]; [cbn [In]; tauto|]. intros Ha Hts Ht Hlt. cbn [nextTagOf fold_right].
  inversion Ha as [|? ? Ha1 Ha2]; subst. destruct Hts as [->|Hts].
  - pose proof (distTo_le (fun _ => true) 1 pos ts t Ha1 Ht ltac:(lia) eq_refl). lia.
  - specialize (IH Ha2 Hts Ht Hlt). unfold nextTagOf in IH. lia.
Qed.

Lemma nextTagOf_ge {T} pos (tss : list (list (tag T))) : 1 <= nextTagOf pos tss.
Proof.
  induction tss as [|x tss IH]; cbn [nextTagOf fold_right]; [unfold umax; lia|].
  pose proof (distTo_ge (fun _ => true) 1 pos x ltac:(unfold umax; lia)). unfold nextTagOf in IH. lia.
Qed.

Lemma nextEosOf_le {T} pos (tss : list (list (tag T))) ts t :
  Forall ascending tss -> In ts tss -> In t ts -> tEos t = true -> pos <= tIdx t -> nextEosOf pos tss <= tIdx t - pos.
Proof.
  induction tss as [|x tss IH]; [cbn [In]; tauto|]. intros Ha Hts Ht He Hlt. cbn [nextEosOf fold_right].
  inversion Ha as [|? ? Ha1 Ha2]; subst. destruct Hts as [->|Hts].
  - pose proof (distTo_le tEos 0 pos ts t Ha1 Ht ltac:(lia) He). lia.
  - specialize (IH Ha2 Hts Ht He Hlt). unfold nextEosOf in IH. lia.
Qed.

Lemma nextEosOf_some {T} pos (tss : list (list (tag T))) :
  nextEosOf pos tss < umax ->
  exists ts t, In ts tss /\ In t ts /\ tEos t = true /\ pos <= tIdx t /\ nextEosOf pos tss = tIdx t - pos.
Proof.
  induction tss as [|x tss IH]; cbn [nextEosOf fold_right]; [lia|]. fold (nextEosOf pos tss). intros H.
  destruct (N.le_gt_cases (nextEosOf pos tss) (distTo tEos 0 pos x)) as [Hc|Hc].
  - destruct IH as (ts & t & H1 & H2 & H3 & H4 & H5); [lia|]. exists ts, t. repeat split; auto; [right; auto|].
    rewrite N.min_l by exact Hc. exact H5.
  - destruct (distTo_some tEos 0 pos x ltac:(lia)) as (t & H1 & H2 & H3 & H4). exists x, t.
    repeat split; auto; [left; auto|lia|]. rewrite N.min_r by lia. exact H4.
Qed.

Lemma nextEosOf_max {T} pos (tss : list (list (tag T))) : nextEosOf pos tss <= umax.
Proof. induction tss as [|x tss IH]; cbn [nextEosOf fold_right]; [lia|]. fold (nextEosOf pos tss). lia. Qed.

(** Without end-of-stream tags none is seen. *)
Lemma nextEosOf_none {T} pos (tss : list (list (tag T))) : noEos tss -> nextEosOf pos tss = umax.
Proof.
  intros H. destruct (N.lt_ge_cases (nextEosOf pos tss) umax) as [Hl|Hl].
  - destruct (nextEosOf_some pos tss Hl) as (ts & t & H1 & H2 & H3 & _). rewrite (H ts t H1 H2) in H3. discriminate.
  - pose proof (nextEosOf_max pos tss). lia.
Qed.

(* ------------------------------------------------------------------ chunk numbers *)

Lemma chunkNo_le c i k : 1 <= ics c -> (chunkNo c i <= k <-> i <= k * ics c).
Proof.
  intros Hc. unfold chunkNo. split; intros H.
  - destruct (N.le_gt_cases i (k * ics c)); [auto|]. exfalso.
    assert (k + 1 <= (i + ics c - 1) / ics c) by (apply mul_le_div; nia). lia.
  - assert ((i + ics c - 1) / ics c < k + 1) by (apply N.div_lt_upper_bound; nia). lia.
Qed.

Lemma chunkNo_ge c i k : 1 <= ics c -> (k <= chunkNo c i <-> k * ics c < i + ics c).
Proof.
  intros Hc. destruct (N.eq_dec k 0) as [->|Hk].
  - split; intros; [nia|lia].
  - pose proof (chunkNo_le c i (k - 1) Hc) as H.
    assert (E : (k - 1) * ics c + ics c = k * ics c) by nia. split; intros; destruct H as [Ha Hb]; [|].
    + destruct (N.le_gt_cases i ((k-1) * ics c)) as [Hi|Hi]; [specialize (Hb Hi); lia|lia].
    + destruct (N.le_gt_cases k (chunkNo c i)) as [Hi|Hi]; [auto|]. specialize (Ha ltac:(lia)). lia.
Qed.

(* ------------------------------------------------------------------ chunks *)

Section Run.
Context {A B S T : Type}.
Variable c : cfg.
Variable u : ublock A B S T.
Variable chunk : S -> list (list A) -> S * list (list B).
Variable s0 : S.
Hypothesis Hch : chunked c.
Hypothesis Hshape : chunkShape chunk c.

Lemma chunks_shape m s xs :
  length (snd (chunks chunk c m s xs)) = length (outP c)
  /\ Forall (fun o => nlen o = N.of_nat m * ocs c) (snd (chunks chunk c m s xs)).
Proof.
  revert s xs; induction m as [|m IH]; intros s xs; cbn [chunks].
  - cbn [snd]. rewrite map_length. split; [reflexivity|]. apply Forall_forall. intros x Hx.
    apply in_map_iff in Hx as (y & <- & _). reflexivity.
  - destruct (Hshape s (map (takeN (ics c)) xs)) as [H1 H2].
    destruct (chunk s (map (takeN (ics c)) xs)) as [s1 o1]. cbn [snd] in H1, H2.
    specialize (IH s1 (map (dropN (ics c)) xs)).
    destruct (chunks chunk c m s1 (map (dropN (ics c)) xs)) as [s2 o2]. cbn [snd] in *. destruct IH as [H3 H4].
    rewrite zipApp_len. split; [exact H1|].
    replace (N.of_nat (Datatypes.S m) * ocs c) with (ocs c + N.of_nat m * ocs c) by lia.
    apply Forall_zipApp; auto; lia.
Qed.

Lemma chunks_take m s xs n :
  N.of_nat m * ics c <= n -> chunks chunk c m s (map (takeN n) xs) = chunks chunk c m s xs.
Proof.
  revert s xs n; induction m as [|m IH]; intros s xs n Hn; cbn [chunks]; [reflexivity|].
  rewrite map_map. rewrite (map_ext (fun x => takeN (ics c) (takeN n x)) (takeN (ics c))).
  2:{ intros x. rewrite takeN_takeN. f_equal. nia. }
  destruct (chunk s (map (takeN (ics c)) xs)) as [s1 o1].
  rewrite map_map. rewrite (map_ext (fun x => dropN (ics c) (takeN n x)) (fun x => takeN (n - ics c) (dropN (ics c) x)))
    by (intros; apply dropN_takeN).
  rewrite <- (map_map (dropN (ics c)) (takeN (n - ics c))). rewrite IH by nia. reflexivity.
Qed.

Lemma chunks_snoc m s xs :
  chunks chunk c (Datatypes.S m) s xs =
  let (s1, o1) := chunks chunk c m s xs in
  let (s2, o2) := chunk s1 (map (fun x => takeN (ics c) (dropN (N.of_nat m * ics c) x)) xs) in
  (s2, zipApp o1 o2).
Proof.
  revert s xs; induction m as [|m IH]; intros s xs.
  - cbn [chunks]. change (map (fun x => takeN (ics c) (dropN (N.of_nat 0 * ics c) x)) xs) with (map (takeN (ics c)) xs).
    pose proof (Hshape s (map (takeN (ics c)) xs)) as [H1 _].
    destruct (chunk s (map (takeN (ics c)) xs)) as [s1 o1]. cbn [snd] in H1.
    rewrite zipApp_nil_r by exact H1. rewrite zipApp_nil_l by exact H1. reflexivity.
  - change (chunks chunk c (Datatypes.S (Datatypes.S m)) s xs) with
      (let (s1, o1) := chunk s (map (takeN (ics c)) xs) in
       let (s2, o2) := chunks chunk c (Datatypes.S m) s1 (map (dropN (ics c)) xs) in (s2, zipApp o1 o2)).
    change (chunks chunk c (Datatypes.S m) s xs) with
      (let (s1, o1) := chunk s (map (takeN (ics c)) xs) in
       let (s2, o2) := chunks chunk c m s1 (map (dropN (ics c)) xs) in (s2, zipApp o1 o2)).
    pose proof (Hshape s (map (takeN (ics c)) xs)) as [H1 _].
    destruct (chunk s (map (takeN (ics c)) xs)) as [s1 o1]. cbn [snd] in H1.
    rewrite IH. pose proof (chunks_shape m s1 (map (dropN (ics c)) xs)) as [H2 _].
    destruct (chunks chunk c m s1 (map (dropN (ics c)) xs)) as [s2 o2]. cbn [snd] in H2.
    rewrite map_map.
    rewrite (map_ext (fun x => takeN (ics c) (dropN (N.of_nat m * ics c) (dropN (ics c) x)))
                     (fun x => takeN (ics c) (dropN (N.of_nat (Datatypes.S m) * ics c) x))).
    2:{ intros x. rewrite dropN_dropN. do 2 f_equal. lia. }
    set (ys := map (fun x => takeN (ics c) (dropN (N.of_nat (Datatypes.S m) * ics c) x)) xs).
    pose proof (Hshape s2 ys) as [H3 _]. destruct (chunk s2 ys) as [s3 o3]. cbn [snd] in H3.
    f_equal. symmetry. apply zipApp_assoc; lia.
Qed.

(* ------------------------------------------------------------------ the reference *)

Lemma reference_shape F G k :
  length (snd (fst (reference chunk c u s0 F G k))) = length (outP c).
Proof.
  induction k as [|k IH]; cbn [reference].
  - cbn [fst snd]. apply map_length.
  - destruct (reference chunk c u s0 F G k) as [[s o] ts]. cbv zeta.
    match goal with |- context[chunk ?a ?b] => destruct (chunk a b) as [s2 o2] end.
    cbn [fst snd] in *. rewrite zipApp_len. exact IH.
Qed.

Definition applied (s : S) (w : list (list (tag T))) : S :=
  fold_left (fun s l => fold_left (fun s t => app u s (tPay t)) l s) w s.

Lemma applied_empty s (w : list (list (tag T))) : (forall l, In l w -> l = []) -> applied s w = s.
Proof.
  unfold applied. revert s; induction w as [|l w IH]; intros s H; [reflexivity|]. cbn [fold_left].
  rewrite (H l (or_introl eq_refl)). cbn [fold_left]. apply IH. intros; apply H; right; auto.
Qed.

Lemma concat_empty {X} (w : list (list X)) : (forall l, In l w -> l = []) -> concat w = [].
Proof.
  induction w as [|l w IH]; intros H; [reflexivity|]. cbn [concat]. rewrite (H l (or_introl eq_refl)).
  apply IH. intros; apply H; right; auto.
Qed.

Lemma chunkForward_empty s (w : list (list (tag T))) : (forall l, In l w -> l = []) -> chunkForward u s w = [].
Proof.
  intros H. unfold chunkForward.
  assert (E : match w with [ts] => ts | _ => firstOcc (eqT u) [] (concat w) end = []).
  { pose proof (concat_empty w H) as E. destruct w as [|a [|b w]]; [reflexivity|apply H; left; auto|rewrite E; reflexivity]. }
  rewrite E. reflexivity.
Qed.

(** [m] chunks without tags in between, from the reference at [k]. *)
Lemma reference_steps F G k m :
  (1 <= m)%nat ->
  (forall j l, (k < j < k + m)%nat -> In l (chunkTags c (N.of_nat j) G) -> l = []) ->
  reference chunk c u s0 F G (k + m) =
  let '(s, o, ts) := reference chunk c u s0 F G k in
  let w := chunkTags c (N.of_nat k) G in
  let s1 := applied s w in
  let (s2, o2) := chunks chunk c m s1 (map (takeN (N.of_nat m * ics c)) (map (dropN (N.of_nat k * ics c)) F)) in
  (s2, zipApp o o2, ts ++ map (fun x => (N.of_nat k * ocs c, Some x)) (chunkForward u s1 w)).
Proof.
  intros Hm He. destruct m as [|m]; [lia|]. clear Hm.
  assert (Hgen : forall j, (j <= m)%nat -> reference chunk c u s0 F G (k + Datatypes.S j) =
    let '(s, o, ts) := reference chunk c u s0 F G k in
    let w := chunkTags c (N.of_nat k) G in
    let s1 := applied s w in
    let (s2, o2) := chunks chunk c (Datatypes.S j) s1 (map (dropN (N.of_nat k * ics c)) F) in
    (s2, zipApp o o2, ts ++ map (fun x => (N.of_nat k * ocs c, Some x)) (chunkForward u s1 w))).
  { induction j as [|j IH]; intros Hj.
    - replace (k + 1)%nat with (Datatypes.S k) by lia. cbn [reference chunks].
      destruct (reference chunk c u s0 F G k) as [[s o] ts] eqn:Er. cbv zeta. fold (applied s (chunkTags c (N.of_nat k) G)).
      rewrite map_map.
      match goal with |- context[chunk ?a ?b] => pose proof (Hshape a b) as [H1 _]; destruct (chunk a b) as [s2 o2] end.
      cbn [snd] in H1. rewrite zipApp_nil_r by exact H1. reflexivity.
    - replace (k + Datatypes.S (Datatypes.S j))%nat with (Datatypes.S (k + Datatypes.S j)) by lia.
      assert (Hw : forall l, In l (chunkTags c (N.of_nat (k + Datatypes.S j)) G) -> l = []).
      { intros l. apply He. lia. }
      remember (k + Datatypes.S j)%nat as kj eqn:Ekj. cbn [reference]. rewrite IH by lia.
      pose proof (reference_shape F G k) as Ho.
      destruct (reference chunk c u s0 F G k) as [[s o] ts]. cbn [fst snd] in Ho. cbv zeta.
      set (s1 := applied s (chunkTags c (N.of_nat k) G)).
      set (E := map (dropN (N.of_nat k * ics c)) F).
      rewrite (chunks_snoc (Datatypes.S j)). pose proof (chunks_shape (Datatypes.S j) s1 E) as [H2 _].
      destruct (chunks chunk c (Datatypes.S j) s1 E) as [s2 o2]. cbn [snd] in H2.
      fold (applied s2 (chunkTags c (N.of_nat kj) G)). rewrite (applied_empty _ _ Hw). rewrite (chunkForward_empty _ _ Hw).
      unfold E. rewrite map_map.
      rewrite (map_ext (fun f => takeN (ics c) (dropN (N.of_nat kj * ics c) f))
                       (fun f => takeN (ics c) (dropN (N.of_nat (Datatypes.S j) * ics c) (dropN (N.of_nat k * ics c) f)))).
      2:{ intros f. rewrite dropN_dropN. do 2 f_equal. lia. }
      match goal with |- context[chunk ?a ?b] => pose proof (Hshape a b) as [H3 _]; destruct (chunk a b) as [s3 o3] end.
      cbn [snd] in H3. rewrite zipApp_assoc by lia. cbn [map]. rewrite app_nil_r. reflexivity. }
  rewrite (Hgen m ltac:(lia)).
  destruct (reference chunk c u s0 F G k) as [[s o] ts]. cbv zeta.
  rewrite chunks_take by lia. reflexivity.
Qed.

(** Later feeds do not change what the first [k] chunks have to give. *)
Lemma reference_feed F G i xs ts k :
  length F = length G ->
  Forall (fun f => N.of_nat k * ics c <= nlen f) F ->
  Forall (fun t => nlen (nth i F []) <= tIdx t) ts ->
  (i < length F)%nat ->
  reference chunk c u s0 (addAt i xs F) (addAt i ts G) k = reference chunk c u s0 F G k.
Proof.
  intros Hl Hlen Hts Hi. destruct Hch as ((Hc1 & _) & _ & _).
  assert (Hi' : N.of_nat k * ics c <= nlen (nth i F [])).
  { rewrite Forall_forall in Hlen. apply Hlen. apply nth_In. exact Hi. }
  assert (Hgen : forall j, (j <= k)%nat -> reference chunk c u s0 (addAt i xs F) (addAt i ts G) j = reference chunk c u s0 F G j).
  { induction j as [|j IH]; intros Hj; [reflexivity|]. cbn [reference]. rewrite IH by lia.
    destruct (reference chunk c u s0 F G j) as [[s o] tt]. cbv zeta.
    assert (E1 : chunkTags c (N.of_nat j) (addAt i ts G) = chunkTags c (N.of_nat j) G).
    { unfold chunkTags. apply map_addAt_same. intros q _. rewrite filter_app.
      rewrite (filter_none _ ts), app_nil_r; [reflexivity|]. intros t Ht. rewrite Forall_forall in Hts. specialize (Hts t Ht).
      destruct (N.eqb_spec (chunkNo c (tIdx t)) (N.of_nat j)) as [E|E]; [|reflexivity].
      pose proof (proj1 (chunkNo_le c (tIdx t) (N.of_nat j) Hc1) ltac:(lia)). nia. }
    assert (E2 : map (fun f => takeN (ics c) (dropN (N.of_nat j * ics c) f)) (addAt i xs F)
                 = map (fun f => takeN (ics c) (dropN (N.of_nat j * ics c) f)) F).
    { apply map_addAt_same. intros q Hq. apply nth_error_In in Hq. rewrite Forall_forall in Hlen. specialize (Hlen q Hq).
      rewrite dropN_app by nia. apply takeN_app. rewrite nlen_dropN. nia. }
    rewrite E1, E2. reflexivity. }
  apply Hgen. lia.
Qed.

End Run.
