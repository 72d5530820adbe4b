(* Proofs for the Schmitt trigger. *)

From Coq Require Import ZArith List Bool Lia.
From Verif Require Import SchmittModel SchmittSpec.
Import ListNotations.

Local Open Scope Z_scope.

Ltac zb := repeat match goal with
  | H : (_ <=? _) = true |- _ => apply Z.leb_le in H
  | H : (_ <=? _) = false |- _ => apply Z.leb_gt in H
  | H : (_ <? _) = true |- _ => apply Z.ltb_lt in H
  | H : (_ <? _) = false |- _ => apply Z.ltb_ge in H
  end.

(* ---------------- any step ---------------- *)

Lemma edges_length : forall f xs s, length (edges f s xs) = length xs.
Proof.
  induction xs as [|x xs IH]; intros s; [reflexivity|]. cbn [edges]. destruct (f s x) as [s' e]. cbn [length]. rewrite IH. reflexivity.
Qed.

Lemma edges_cons : forall f x xs s, edges f s (x :: xs) = snd (f s x) :: edges f (fst (f s x)) xs.
Proof. intros. cbn [edges]. destruct (f s x). reflexivity. Qed.

Lemma after_app : forall f xs ys s, after f s (xs ++ ys) = after f (after f s xs) ys.
Proof. induction xs as [|x xs IH]; intros ys s; [reflexivity|]. cbn [app after]. apply IH. Qed.

Lemma edges_app : forall f xs ys s, edges f s (xs ++ ys) = edges f s xs ++ edges f (after f s xs) ys.
Proof.
  induction xs as [|x xs IH]; intros ys s; [reflexivity|]. cbn [app]. rewrite !edges_cons. cbn [after app]. f_equal. apply IH.
Qed.

Lemma nth_edges : forall f k xs s, (k < length xs)%nat ->
  nth k (edges f s xs) ENone = snd (f (after f s (firstn k xs)) (nth k xs 0)) /\
  after f s (firstn (S k) xs) = fst (f (after f s (firstn k xs)) (nth k xs 0)).
Proof.
  induction k as [|k IH]; intros xs s H; destruct xs as [|x xs]; cbn [length] in H; try lia.
  - rewrite edges_cons. split; reflexivity.
  - rewrite edges_cons. cbn [nth firstn after].
    destruct (IH xs (fst (f s x)) ltac:(lia)) as [A B]. split; [exact A|].
    change (after f (fst (f s x)) (firstn (S k) xs) = fst (f (after f (fst (f s x)) (firstn k xs)) (nth k xs 0))). exact B.
Qed.

(* A step changes the side by its edge. *)
Definition moves (f : tst -> Z -> tst * edge) : Prop := forall s x, snd (f s x) = between (high s) (high (fst (f s x))).

Lemma moves0 : forall c, moves (step0 c).
Proof.
  intros c s x. unfold step0. destruct (high s) eqn:H; cbn [negb andb].
  - destruct (x <=? lower c); cbn [fst snd high]; rewrite ?H; reflexivity.
  - destruct (upper c <=? x); cbn [fst snd high]; rewrite ?H; reflexivity.
Qed.
Lemma moves1 : forall c, moves (step1 c).
Proof.
  intros c s x. unfold step1. destruct (high s) eqn:H; cbn [negb andb].
  - destruct (x <=? lower c); cbn [fst snd high]; rewrite ?H; reflexivity.
  - destruct (upper c <=? x); cbn [fst snd high]; rewrite ?H; reflexivity.
Qed.
Lemma moves2 : forall fit c, moves (step2 fit c).
Proof.
  intros fit c s x. unfold step2. cbv zeta.
  match goal with |- context [Nat.ltb 0 ?a] => destruct (Nat.ltb 0 a) end;
  try (match goal with |- context [Nat.ltb 0 ?a] => destruct (Nat.ltb 0 a) end);
  destruct (high s) eqn:H; cbn [negb andb orb]; rewrite ?orb_false_r;
  repeat match goal with |- context [if ?b then _ else _] => destruct b end; try (destruct (fit _ _)); cbn [fst snd high between]; rewrite ?H; reflexivity.
Qed.

Lemma alternates : forall f, moves f -> forall xs s, alternate (if high s then EFalling else ERising) (real (edges f s xs)).
Proof.
  intros f Hf. induction xs as [|x xs IH]; intros s; [exact I|].
  rewrite edges_cons. specialize (IH (fst (f s x))). pose proof (Hf s x) as M. rewrite M. unfold real in *.
  destruct (high s), (high (fst (f s x))); cbn [between filter alternate]; auto.
Qed.

(* ---------------- no interpolation ---------------- *)

Lemma high0 : forall c s x, 0 < thr c -> high (fst (step0 c s x)) = if upper c <=? x then true else if x <=? lower c then false else high s.
Proof.
  intros c s x Ht. unfold step0, upper, lower. destruct (high s) eqn:H; cbn [negb andb];
  destruct (x <=? offs c - thr c) eqn:A; destruct (offs c + thr c <=? x) eqn:B; zb; cbn [fst high]; try lia; auto.
Qed.

Lemma side0 : forall c, 0 < thr c -> forall xs s pre, high s = side (lower c) (upper c) pre ->
  high (after (step0 c) s xs) = side (lower c) (upper c) (rev xs ++ pre).
Proof.
  intros c Ht. induction xs as [|x xs IH]; intros s pre H; [exact H|].
  cbn [after rev]. rewrite <- app_assoc. apply (IH _ (x :: pre)). rewrite high0 by exact Ht. cbn [side]. rewrite H. reflexivity.
Qed.

Lemma index0 : forall c xs, idx (after (step0 c) initT xs) = match since (rev (edges (step0 c) initT xs)) with None => 1 | Some n => - Z.of_nat n end.
Proof.
  intros c xs. induction xs as [|x xs IH] using rev_ind; [reflexivity|].
  rewrite edges_app, after_app. cbn [after]. rewrite edges_cons. cbn [edges]. rewrite rev_app_distr. cbn [rev app].
  set (s := after (step0 c) initT xs) in *. unfold step0 at 1 2.
  destruct (negb (high s) && (upper c <=? x)); [reflexivity|]. destruct (high s && (x <=? lower c)); [reflexivity|].
  cbn [fst snd idx since]. unfold older. rewrite IH. destruct (since (rev (edges (step0 c) initT xs))) as [n|]; cbn [option_map].
  - destruct (0 <? - Z.of_nat n) eqn:E; zb; [lia|]. lia.
  - reflexivity.
Qed.

(* ---------------- the other methods give the same edges ---------------- *)

Lemma same1 : forall c xs s s', high s = high s' -> edges (step1 c) s xs = edges (step0 c) s' xs.
Proof.
  intros c. induction xs as [|x xs IH]; intros s s' H; [reflexivity|]. rewrite !edges_cons.
  assert (A : snd (step1 c s x) = snd (step0 c s' x) /\ high (fst (step1 c s x)) = high (fst (step0 c s' x))).
  { unfold step1, step0. rewrite H. destruct (negb (high s') && (upper c <=? x)); [split; reflexivity|].
    destruct (high s' && (x <=? lower c)); split; try reflexivity; exact H. }
  destruct A as [-> A]. f_equal. apply IH. exact A.
Qed.

(* Outside of the zone the newest sample is on its side of it. *)
Definition calm (c : tcfg) (s : tst) : Prop :=
  acc s = 0%nat -> if high s then upper c <= hd 0 (hist s) else hd 0 (hist s) <= lower c.

Lemma same2_step : forall fit c s s' x, 0 < thr c -> (forall h a, fit h a <> None) -> high s = high s' -> calm c s ->
  snd (step2 fit c s x) = snd (step0 c s' x) /\ high (fst (step2 fit c s x)) = high (fst (step0 c s' x)) /\ calm c (fst (step2 fit c s x)).
Proof.
  intros fit c s s' x Ht Hf He Hc. unfold step2, step0, calm in *. cbv zeta. rewrite <- He.
  assert (Hlu : lower c < upper c) by (unfold lower, upper; lia).
  set (y := hd 0 (hist s)) in *. set (h := push x (hist s)).
  assert (Hh : hd 0 h = x) by reflexivity.
  destruct (acc s) as [|a] eqn:Ha.
  - specialize (Hc eq_refl). change (Nat.ltb 0 0) with false. cbn [negb andb].
    destruct (high s) eqn:Hs; cbn [negb andb orb].
    + destruct (upper c <=? y) eqn:E1; zb; [|lia]. cbn [andb].
      destruct (x <? upper c) eqn:E2; zb.
      * change (Nat.ltb 0 1) with true. cbn [andb].
        destruct (x <=? lower c) eqn:E3; zb.
        -- destruct (fit h 1%nat) as [p|] eqn:Ef; [|destruct (Hf _ _ Ef)]. cbn [fst snd high acc hist]. split; [reflexivity|]. split; [reflexivity|]. intros _. rewrite Hh. lia.
        -- destruct (upper c <? x) eqn:E4; zb; [lia|]. cbn [fst snd high acc hist]. rewrite ?Hs. split; [reflexivity|]. split; [reflexivity|]. discriminate.
      * change (Nat.ltb 0 0) with false. cbn [fst snd high acc hist]. destruct (x <=? lower c) eqn:E3; zb; [lia|]. cbn [fst snd high]. rewrite ?Hs. split; [reflexivity|]. split; [reflexivity|]. intros _. rewrite Hh. lia.
    + destruct (y <=? lower c) eqn:E1; zb; [|lia]. cbn [andb].
      destruct (lower c <? x) eqn:E2; zb.
      * change (Nat.ltb 0 1) with true. cbn [andb].
        destruct (upper c <=? x) eqn:E3; zb.
        -- cbn [orb]. destruct (fit h 1%nat) as [p|] eqn:Ef; [|destruct (Hf _ _ Ef)]. cbn [fst snd high acc hist]. split; [reflexivity|]. split; [reflexivity|]. intros _. rewrite Hh. lia.
        -- cbn [orb]. destruct (x <? lower c) eqn:E4; zb; [lia|]. cbn [fst snd high acc hist orb]. rewrite ?Hs. split; [reflexivity|]. split; [reflexivity|]. discriminate.
      * change (Nat.ltb 0 0) with false. destruct (upper c <=? x) eqn:E3; zb; [lia|]. cbn [fst snd high acc hist]. rewrite ?Hs. split; [reflexivity|]. split; [reflexivity|]. intros _. rewrite Hh. lia.
  - change (Nat.ltb 0 (S a)) with true. cbn [negb andb]. change (Nat.ltb 0 (S (S a))) with true. cbn [negb andb].
    destruct (high s) eqn:Hs; cbn [negb andb orb].
    + destruct (x <=? lower c) eqn:E3; zb.
      * destruct (fit h (S (S a))) as [p|] eqn:Ef; [|destruct (Hf _ _ Ef)]. cbn [fst snd high acc hist]. split; [reflexivity|]. split; [reflexivity|]. intros _. rewrite Hh. lia.
      * destruct (upper c <? x) eqn:E4; zb; cbn [fst snd high acc hist]; rewrite ?Hs; (split; [reflexivity|]); (split; [reflexivity|]); [intros _; rewrite Hh; lia|discriminate].
    + destruct (upper c <=? x) eqn:E3; zb; cbn [orb].
      * destruct (fit h (S (S a))) as [p|] eqn:Ef; [|destruct (Hf _ _ Ef)]. cbn [fst snd high acc hist]. split; [reflexivity|]. split; [reflexivity|]. intros _. rewrite Hh. lia.
      * destruct (x <? lower c) eqn:E4; zb; cbn [fst snd high acc hist orb]; rewrite ?Hs; (split; [reflexivity|]); (split; [reflexivity|]); [intros _; rewrite Hh; lia|discriminate].
Qed.

Lemma same2 : forall fit c, 0 < thr c -> (forall h a, fit h a <> None) -> forall xs s s', high s = high s' -> calm c s ->
  edges (step2 fit c) s xs = edges (step0 c) s' xs.
Proof.
  intros fit c Ht Hf. induction xs as [|x xs IH]; intros s s' H Hc; [reflexivity|]. rewrite !edges_cons.
  destruct (same2_step fit c s s' x Ht Hf H Hc) as (-> & B & C). f_equal. apply IH; assumption.
Qed.

(* ---------------- positions ---------------- *)

Lemma round_near : forall p q, q <> 0 -> 2 * Z.abs (p - roundDiv p q * q) <= Z.abs q.
Proof.
  intros p q Hq. unfold roundDiv.
  set (a := Z.abs p). set (b := Z.abs q). assert (Hb : 0 < b) by (unfold b; lia).
  pose proof (Z.div_mod (2 * a + b) (2 * b) ltac:(lia)) as D. pose proof (Z.mod_pos_bound (2 * a + b) (2 * b) ltac:(lia)) as M.
  set (k := (2 * a + b) / (2 * b)) in *.
  assert (E : Z.abs (p - Z.sgn p * Z.sgn q * k * q) = Z.abs (a - k * b)).
  { unfold a, b. destruct (Z.abs_spec p) as [[P1 ->]|[P1 ->]]; destruct (Z.abs_spec q) as [[Q1 ->]|[Q1 ->]].
    - destruct (Z.eq_dec p 0) as [->|Np].
      + change (Z.sgn 0) with 0. assert (k = 0) as -> by (unfold k, a; change (Z.abs 0) with 0; apply Z.div_small; unfold b; lia). f_equal; ring.
      + rewrite (Z.sgn_pos p), (Z.sgn_pos q) by lia. f_equal; ring.
    - destruct (Z.eq_dec p 0) as [->|Np].
      + change (Z.sgn 0) with 0. assert (k = 0) as -> by (unfold k, a; change (Z.abs 0) with 0; apply Z.div_small; unfold b; lia). f_equal; ring.
      + rewrite (Z.sgn_pos p), (Z.sgn_neg q) by lia. f_equal; ring.
    - rewrite (Z.sgn_neg p), (Z.sgn_pos q) by lia. rewrite <- Z.abs_opp. f_equal; ring.
    - rewrite (Z.sgn_neg p), (Z.sgn_neg q) by lia. rewrite <- Z.abs_opp. f_equal; ring. }
  rewrite E. nia.
Qed.

Lemma basic_straddle : forall c y1 y2, (y1 <= offs c <= y2 \/ y2 <= offs c <= y1) -> basicPos c y1 y2 = -1 \/ basicPos c y1 y2 = 0.
Proof.
  intros c y1 y2 H. unfold basicPos. destruct (Z.eqb_spec y1 y2) as [E|E]; [right; reflexivity|].
  pose proof (round_near (offs c - y2) (y2 - y1) ltac:(lia)) as N.
  assert (S : roundDiv (offs c - y2) (y2 - y1) <= 0).
  { unfold roundDiv. assert (0 <= (2 * Z.abs (offs c - y2) + Z.abs (y2 - y1)) / (2 * Z.abs (y2 - y1))) by (apply Z.div_pos; lia).
    assert (Z.sgn (offs c - y2) * Z.sgn (y2 - y1) <= 0).
    { destruct H as [H|H].
      - rewrite (Z.sgn_pos (y2 - y1)) by lia. pose proof (Z.sgn_spec (offs c - y2)). lia.
      - rewrite (Z.sgn_neg (y2 - y1)) by lia. pose proof (Z.sgn_spec (offs c - y2)). lia. }
    nia. }
  set (r := roundDiv (offs c - y2) (y2 - y1)) in *.
  assert (-2 < r).
  { destruct H as [H|H].
    - assert (D : 0 < y2 - y1) by lia. set (q := y2 - y1) in *. nia.
    - assert (D : 0 < y1 - y2) by lia. nia. }
  lia.
Qed.

(* ---------------- the block ---------------- *)

Definition onTime (f : tst -> Z -> tst * edge) : Prop := forall s x, snd (f s x) <> ENone -> idx (fst (f s x)) = 0.

Lemma onTime0 : forall c, onTime (step0 c).
Proof.
  intros c s x. unfold step0. destruct (negb (high s) && (upper c <=? x)); [reflexivity|].
  destruct (high s && (x <=? lower c)); [reflexivity|]. cbn [snd]. intros H. destruct (H eq_refl).
Qed.

Lemma scan_spec : forall f names period, onTime f -> forall xs i s n, n = (i + length xs)%nat ->
  exists k tg, (k <= length xs)%nat /\ (xs <> [] -> (0 < k)%nat) /\
  scan f names period n i s xs = (mkB (after f (trg s) (firstn k xs)) (now s + period * Z.of_nat k), (i + k)%nat, tg) /\
  tagsOf names period i (now s) (edges f (trg s) (firstn k xs)) = match tg with Some t => [t] | None => [] end.
Proof.
  intros f names period Hf. induction xs as [|x xs IH]; intros i s n Hn.
  - exists 0%nat, None. cbn [length] in *. split; [lia|]. split; [intros H; destruct (H eq_refl)|]. cbn [firstn scan after edges tagsOf].
    split; [|reflexivity]. rewrite Hn. destruct s as [tr t]. cbn [trg now]. do 2 f_equal. f_equal. lia.
  - cbn [length] in Hn. cbn [scan].
    pose proof (Hf (trg s) x) as Ho. destruct (f (trg s) x) as [tr e] eqn:E. cbn [fst snd] in Ho.
    destruct (named names e && (0 <=? Z.of_nat i + idx tr) && (Z.of_nat i + idx tr <? Z.of_nat n)) eqn:G.
    + apply andb_prop in G. destruct G as [G _]. apply andb_prop in G. destruct G as [G _].
      assert (Ne : e <> ENone) by (intros ->; discriminate G). rewrite (Ho Ne). rewrite Z.add_0_r, Nat2Z.id.
      exists 1%nat, (Some (i, e, now s + period)). cbn [length]. split; [lia|]. split; [lia|].
      change (firstn 1 (x :: xs)) with [x]. cbn [after edges]. rewrite E. cbn [fst tagsOf app]. rewrite G. split; [|reflexivity].
      replace (now s + period - 0 * period) with (now s + period) by ring. replace (i + 1)%nat with (S i) by lia.
      do 2 f_equal. f_equal. lia.
    + assert (Nn : named names e = false).
      { destruct (named names e) eqn:N; [|reflexivity]. assert (Ne : e <> ENone) by (intros ->; discriminate N).
        rewrite (Ho Ne), Z.add_0_r in G. cbn [andb] in G. destruct (0 <=? Z.of_nat i) eqn:G1; zb; [|lia]. cbn [andb] in G. zb. lia. }
      destruct (IH (S i) (mkB tr (now s + period)) n ltac:(lia)) as (k & tg & K1 & K2 & K3 & K4). cbn [trg now] in K3, K4.
      exists (S k), tg. cbn [length]. split; [lia|]. split; [lia|]. rewrite K3. cbn [firstn after edges]. rewrite E. cbn [fst tagsOf]. rewrite Nn. cbn [app].
      split; [|exact K4]. replace (S i + k)%nat with (i + S k)%nat by lia. do 2 f_equal. f_equal. lia.
Qed.

Lemma tagsOf_app : forall names period a b i t,
  tagsOf names period i t (a ++ b) = tagsOf names period i t a ++ tagsOf names period (i + length a) (t + period * Z.of_nat (length a)) b.
Proof.
  induction a as [|e a IH]; intros b i t.
  - cbn [app length tagsOf]. f_equal; lia.
  - cbn [app length tagsOf]. rewrite IH, app_assoc. f_equal. f_equal; lia.
Qed.

Lemma tagsOf_shift : forall names period es i j t, tagsOf names period (j + i) t es = map (fun g : tag => let '(p, e, u) := g in ((j + p)%nat, e, u)) (tagsOf names period i t es).
Proof.
  induction es as [|e es IH]; intros i j t; [reflexivity|]. cbn [tagsOf]. rewrite map_app. f_equal.
  - destruct (named names e); reflexivity.
  - rewrite <- IH. f_equal. lia.
Qed.

Lemma calls_spec : forall f names period s0 t0 xs, onTime f -> forall cs done s' d ts, (done <= length xs)%nat ->
  calls f names period (mkB (after f s0 (firstn done xs)) (t0 + period * Z.of_nat done)) done xs cs = (s', d, ts) ->
  (done <= d <= length xs)%nat /\ s' = mkB (after f s0 (firstn d xs)) (t0 + period * Z.of_nat d) /\
  tagsOf names period 0 t0 (edges f s0 (firstn d xs)) = tagsOf names period 0 t0 (edges f s0 (firstn done xs)) ++ ts.
Proof.
  intros f names period s0 t0 xs Hf. induction cs as [|[[given room] eos] cs IH]; intros done s' d ts Hd H.
  - cbn [calls] in H. assert (E1 : s' = mkB (after f s0 (firstn done xs)) (t0 + period * Z.of_nat done)) by congruence.
    assert (E2 : d = done) by congruence. assert (E3 : ts = []) by congruence. subst s' d ts. rewrite app_nil_r. split; [lia|]. split; reflexivity.
  - cbn [calls] in H. unfold processBulk in H. set (span := firstn given (skipn done xs)) in H. set (n := nProcess span room eos) in H.
    destruct n as [|n'] eqn:En; [apply IH; assumption|].
    assert (Hn : (S n' <= length span)%nat) by (rewrite <- En; unfold n, nProcess; destruct eos; lia).
    assert (Ln : length (firstn (S n') span) = S n') by (rewrite firstn_length; lia).
    destruct (scan_spec f names period Hf (firstn (S n') span) 0 (mkB (after f s0 (firstn done xs)) (t0 + period * Z.of_nat done)) (S n') ltac:(lia))
      as (k & tg & K1 & K2 & K3 & K4).
    rewrite K3 in H. cbn [trg now] in H, K4. rewrite Nat.add_0_l in H.
    assert (Lk : (k <= S n')%nat) by lia.
    assert (Fk : firstn k (firstn (S n') span) = firstn k (skipn done xs)).
    { unfold span. rewrite !firstn_firstn. f_equal. unfold span in Hn. rewrite firstn_length in Hn. lia. }
    rewrite Fk in H, K4. clear K3.
    assert (Lx : (done + k <= length xs)%nat).
    { unfold span in Hn. rewrite firstn_length, skipn_length in Hn. lia. }
    assert (Fd : firstn (done + k) xs = firstn done xs ++ firstn k (skipn done xs)).
    { rewrite <- (firstn_skipn done xs) at 1. rewrite firstn_app, firstn_firstn, firstn_length.
      replace (Nat.min (done + k) done) with done by lia. replace (done + k - Nat.min done (length xs))%nat with k by lia. reflexivity. }
    rewrite <- after_app, <- Fd in H.
    replace (t0 + period * Z.of_nat done + period * Z.of_nat k) with (t0 + period * Z.of_nat (done + k)) in H by lia.
    destruct (calls f names period (mkB (after f s0 (firstn (done + k) xs)) (t0 + period * Z.of_nat (done + k))) (done + k) xs cs) as [[s2 d2] ts2] eqn:Ec.
    assert (E1 : s' = s2) by congruence. assert (E2 : d = d2) by congruence. subst s' d.
    destruct (IH (done + k)%nat s2 d2 ts2 Lx Ec) as (I1 & I2 & I3).
    split; [lia|]. split; [exact I2|]. rewrite I3, Fd, edges_app, tagsOf_app, <- app_assoc. f_equal.
    rewrite edges_length, firstn_length, Nat.min_l by lia.
    assert (Sh : tagsOf names period (0 + done) (t0 + period * Z.of_nat done) (edges f (after f s0 (firstn done xs)) (firstn k (skipn done xs)))
               = map (fun g : tag => let '(p, e, u) := g in ((done + p)%nat, e, u)) (match tg with Some t => [t] | None => [] end)).
    { rewrite <- K4, <- tagsOf_shift. f_equal. lia. }
    rewrite Sh. destruct tg as [[[p e] t]|]; cbv beta iota in H; cbn [map app]; [apply (f_equal snd) in H; cbn [snd] in H; rewrite <- H; reflexivity|apply (f_equal snd) in H; cbn [snd] in H; rewrite <- H; reflexivity].
Qed.
