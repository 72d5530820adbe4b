(** Batching consequences, flattening, priming size. *)
From Coq Require Import Ascii String ZArith NArith Bool Arith Permutation Sorted Lia List.
From Verif Require Import Base TopoModel TopoSpec TopoProofs TopoSearch TopoLoopProofs TopoWccProofs.
Import ListNotations.
Local Open Scope nat_scope.

(** ** Round robin *)

Lemma roundRobin_at bs n jobs k m : 0 < n -> roundRobin bs n jobs -> k < n ->
  match nth_error jobs k with Some j => nth_error j m | None => None end = nth_error bs (k + m * n).
Proof.
  intros Hn [HL H] Hk. rewrite H. rewrite Nat.mod_add, Nat.div_add by lia.
  rewrite Nat.mod_small, Nat.div_small by exact Hk. reflexivity.
Qed.

Lemma roundRobin_sizes bs n jobs : 0 < n -> roundRobin bs n jobs ->
  forall a b, In a jobs -> In b jobs -> length a <= S (length b).
Proof.
  intros Hn HR a b Ha Hb.
  apply In_nth_error in Ha as (k & Ek). apply In_nth_error in Hb as (l & El).
  pose proof (proj1 HR) as HL.
  assert (Lk : k < n) by (rewrite <- HL; apply nth_error_Some; congruence).
  assert (Ll : l < n) by (rewrite <- HL; apply nth_error_Some; congruence).
  destruct (Nat.le_gt_cases (length a) (S (length b))) as [L|L]; [exact L|exfalso].
  pose proof (roundRobin_at bs n jobs k (S (length b)) Hn HR Lk) as H1. rewrite Ek in H1.
  pose proof (roundRobin_at bs n jobs l (length b) Hn HR Ll) as H2. rewrite El in H2.
  assert (X : nth_error b (length b) = None) by (apply nth_error_None; lia). rewrite X in H2.
  symmetry in H2. apply nth_error_None in H2.
  assert (Y : nth_error a (S (length b)) <> None) by (apply nth_error_Some; lia). rewrite H1 in Y.
  apply nth_error_Some in Y. nia.
Qed.

Lemma roundRobin_In bs n jobs b : 0 < n -> roundRobin bs n jobs -> (In b (concat jobs) <-> In b bs).
Proof.
  intros Hn HR. pose proof (proj1 HR) as HL. rewrite in_concat. split.
  - intros (j & Hj & Hb). apply In_nth_error in Hj as (k & Ek). apply In_nth_error in Hb as (m & Em).
    assert (Lk : k < n) by (rewrite <- HL; apply nth_error_Some; congruence).
    pose proof (roundRobin_at bs n jobs k m Hn HR Lk) as H. rewrite Ek, Em in H. symmetry in H. eapply nth_error_In; exact H.
  - intros Hb. apply In_nth_error in Hb as (i & Ei). rewrite (proj2 HR) in Ei.
    destruct (nth_error jobs (i mod n)) as [j|] eqn:E; [|discriminate].
    exists j. split; [eapply nth_error_In; exact E|eapply nth_error_In; exact Ei].
Qed.

Lemma roundRobin_unique bs n jobs : 0 < n -> roundRobin bs n jobs -> NoDup bs ->
  forall b k l j j' m m', nth_error jobs k = Some j -> nth_error j m = Some b ->
    nth_error jobs l = Some j' -> nth_error j' m' = Some b -> k = l /\ m = m'.
Proof.
  intros Hn HR HN b k l j j' m m' Ek Em El Em'. pose proof (proj1 HR) as HL.
  assert (Lk : k < n) by (rewrite <- HL; apply nth_error_Some; congruence).
  assert (Ll : l < n) by (rewrite <- HL; apply nth_error_Some; congruence).
  pose proof (roundRobin_at bs n jobs k m Hn HR Lk) as H1. rewrite Ek, Em in H1.
  pose proof (roundRobin_at bs n jobs l m' Hn HR Ll) as H2. rewrite El, Em' in H2.
  assert (X : k + m * n = l + m' * n).
  { apply (proj1 (NoDup_nth_error bs) HN); [apply nth_error_Some; congruence|congruence]. }
  assert (m = m') by nia. subst. split; [lia|reflexivity].
Qed.

Lemma roundRobin_nonempty bs n jobs : 0 < n -> roundRobin bs n jobs -> n <= length bs -> ~ In [] jobs.
Proof.
  intros Hn HR Hl Hin. apply In_nth_error in Hin as (k & Ek). pose proof (proj1 HR) as HL.
  assert (Lk : k < n) by (rewrite <- HL; apply nth_error_Some; congruence).
  pose proof (roundRobin_at bs n jobs k 0 Hn HR Lk) as H. rewrite Ek in H. cbn in H. symmetry in H.
  apply nth_error_None in H. lia.
Qed.

(** ** Nesting *)

Fixpoint Block_rec' (P : Block -> Prop)
  (H : forall i c ch es, Forall P ch -> P (Blk i c ch es)) (b : Block) : P b :=
  match b with
  | Blk i c ch es => H i c ch es ((fix go (l : list Block) : Forall P l :=
      match l with [] => Forall_nil P | x :: r => Forall_cons x (Block_rec' P H x) (go r) end) ch)
  end.

Definition descends (t c : Category) : Prop :=
  match t with AllCat => c = TransparentBlockGroup \/ c = ScheduledBlockGroup | _ => c = t end.

Lemma enters_iff t c : enters t c = true <-> descends t c.
Proof. destruct t, c; cbn; intuition congruence. Qed.

Lemma subBlocks_holds t g b : forall x, holds (descends t) g b -> In x (subBlocks t b) -> holds (descends t) g x.
Proof.
  induction b as [i c ch es IH] using Block_rec'. intros x Hb Hx. cbn in Hx.
  destruct (enters t c) eqn:E; [|destruct Hx]. apply enters_iff in E.
  apply in_app_iff in Hx as [Hx|Hx]; [eapply holds_in; eassumption|].
  apply in_flat_map in Hx as (y & Hy & Hx). rewrite Forall_forall in IH.
  apply (IH y Hy x); [|exact Hx]. eapply holds_in; eassumption.
Qed.

Lemma subBlocks_closed t q : forall i c ch es b, In (Blk i c ch es) (subBlocks t q) -> descends t c -> In b ch -> In b (subBlocks t q).
Proof.
  induction q as [qi qc qch qes IH] using Block_rec'. intros i c ch es b Hp Hc Hb. cbn in *.
  destruct (enters t qc) eqn:E; [|destruct Hp]. rewrite Forall_forall in IH. apply in_app_iff. right. apply in_flat_map.
  apply in_app_iff in Hp as [Hp|Hp].
  - exists (Blk i c ch es). split; [exact Hp|]. cbn. apply enters_iff in Hc. rewrite Hc. apply in_app_iff. left. exact Hb.
  - apply in_flat_map in Hp as (y & Hy & Hp). exists y. split; [exact Hy|]. eapply (IH y Hy); eassumption.
Qed.

Lemma forEachBlock_holds t g b : In b (forEachBlock t g) <-> holds (descends t) g b.
Proof.
  unfold forEachBlock. split.
  - intros H. apply in_app_iff in H as [H|H]; [apply holds_top; exact H|].
    apply in_flat_map in H as (y & Hy & H). apply (subBlocks_holds t g y b); [apply holds_top; exact Hy|exact H].
  - induction 1 as [b Hb|i c ch es b Hp IH Hc Hb].
    + apply in_app_iff. left. exact Hb.
    + apply in_app_iff. right. apply in_flat_map. apply in_app_iff in IH as [IH|IH].
      * exists (Blk i c ch es). split; [exact IH|]. cbn. apply enters_iff in Hc. rewrite Hc. apply in_app_iff. left. exact Hb.
      * apply in_flat_map in IH as (y & Hy & IH). exists y. split; [exact Hy|]. eapply subBlocks_closed; eassumption.
Qed.

Lemma flatten_edges t g :
  let es := edges (flatten t g) in
  distinct es /\
  (forall e, In e es -> In e (edges g) \/ exists b, holds (descends t) g b /\ In e (binner b)) /\
  (forall e, In e (edges g) \/ (exists b, holds (descends t) g b /\ In e (binner b)) ->
     exists x, In x es /\ connection x = connection e).
Proof.
  cbv zeta. unfold flatten. cbn [edges].
  destruct (addEdges_sound (edges g) [] (NoDup_nil _)) as (A1 & A2 & A3 & A4).
  destruct (addEdges_sound (flat_map binner (forEachBlock t g)) _ A1) as (B1 & (more & B2) & B3 & B4).
  split; [exact B1|]. split.
  - intros e He. apply B3 in He as [He|He].
    + apply A3 in He as [[]|He]. left. exact He.
    + apply in_flat_map in He as (b & Hb & He). right. exists b. split; [apply forEachBlock_holds; exact Hb|exact He].
  - intros e [He|(b & Hb & He)].
    + destruct (A4 e He) as (x & Hx & E). exists x. split; [|exact E]. rewrite B2. apply in_app_iff. left. exact Hx.
    + apply B4. apply in_flat_map. exists b. split; [apply forEachBlock_holds; exact Hb|exact He].
Qed.

(** ** Priming size *)
Local Open Scope Z_scope.

Lemma wrap32_id x : - 2 ^ 31 <= x < 2 ^ 31 -> wrap32 x = x.
Proof. intros H. unfold wrap32. rewrite Z.mod_small; lia. Qed.

Lemma productOf_pos f c : (forall e, In e c -> 1 <= f (dst e)) -> 1 <= productOf f c.
Proof.
  unfold productOf. induction c as [|e c IH]; intros H; cbn; [lia|].
  specialize (IH (fun x Hx => H x (or_intror Hx))). specialize (H e (or_introl eq_refl)). nia.
Qed.

Lemma cumulative_exact info : forall c n d,
  1 <= n -> 1 <= d ->
  (forall e, In e c -> 1 <= numerator (info (dst e)) /\ 1 <= denominator (info (dst e))) ->
  n * productOf (fun b => numerator (info b)) c < 2 ^ 31 -> d * productOf (fun b => denominator (info b)) c < 2 ^ 31 ->
  fold_left (fun nd e => (wrap32 (fst nd * numerator (info (dst e))), wrap32 (snd nd * denominator (info (dst e))))) c (n, d)
  = (n * productOf (fun b => numerator (info b)) c, d * productOf (fun b => denominator (info b)) c).
Proof.
  induction c as [|e c IH]; intros n d Hn Hd Hp H1 H2; cbn [fold_left].
  - unfold productOf. cbn. f_equal; lia.
  - cbn [fst snd]. destruct (Hp e (or_introl eq_refl)) as [P1 P2].
    assert (Q1 : 1 <= productOf (fun b => numerator (info b)) c) by (apply productOf_pos; intros x Hx; apply Hp; right; exact Hx).
    assert (Q2 : 1 <= productOf (fun b => denominator (info b)) c) by (apply productOf_pos; intros x Hx; apply Hp; right; exact Hx).
    unfold productOf in H1, H2 |- *. cbn [map fold_right] in H1, H2 |- *.
    fold (productOf (fun b => numerator (info b)) c) in *. fold (productOf (fun b => denominator (info b)) c) in *.
    rewrite !wrap32_id by nia. rewrite IH; try nia; [f_equal; ring|]. intros x Hx. apply Hp. right. exact Hx.
Qed.

Lemma max_cond (c : bool) n m : n <= (if c then Z.max n m else n).
Proof. destruct c; lia. Qed.

Definition portNeed (i : BlockInfo) (p : PortDef) : Z := atLeast (minInput i) (destPortIdx i p).


Lemma destNeed_max i p n : sane i -> 1 <= n ->
  destNeed i p n = Z.max n (Z.max (portNeed i p) (Z.max (numerator i) (stride i))).
Proof.
  intros [[H1 H2] _] Hn. unfold destNeed, portNeed, atLeast.
  assert (E0 : toSize (numerator i) = numerator i) by (unfold toSize; apply Z.mod_small; lia).
  rewrite E0. cbv zeta.
  assert (E1 : (match destPortIdx i p with
     | Some k => match nth_error (minInput i) k with Some m => if 0 <? m then Z.max n m else n | None => n end
     | None => n end) = Z.max n (match destPortIdx i p with Some k => nth k (minInput i) 0 | None => 0 end)).
  { destruct (destPortIdx i p) as [k|]; [|lia]. destruct (nth_error (minInput i) k) as [m|] eqn:E.
    - rewrite (nth_error_nth _ _ 0 E). destruct (Z.ltb_spec 0 m); lia.
    - apply nth_error_None in E. rewrite nth_overflow by exact E. lia. }
  rewrite E1. destruct (Z.ltb_spec 0 (numerator i)); [|lia]. destruct (Z.ltb_spec 0 (stride i)); lia.
Qed.

Lemma sourceNeed_max i : sane i -> sourceNeed i 1 = Z.max 1 (Z.max (numerator i / denominator i) (stride i)).
Proof.
  intros [[H1 H2] [H3 H4]]. unfold sourceNeed.
  rewrite Z.mul_1_l.
  assert (E0 : toSize (toSize (numerator i)) = numerator i) by (unfold toSize; rewrite !Z.mod_small by (rewrite ?Z.mod_small; lia); reflexivity).
  assert (E1 : toSize (denominator i) = denominator i) by (unfold toSize; apply Z.mod_small; lia).
  rewrite E0, E1. destruct (Z.ltb_spec 0 (denominator i)); [|lia]. cbv zeta. destruct (Z.ltb_spec 0 (stride i)); lia.
Qed.

Lemma needs_ge info : forall c n, (forall e, In e c -> sane (info (dst e))) -> 1 <= n ->
  let r := fold_left (fun n e => destNeed (info (dst e)) (dstPort e) n) c n in
  n <= r /\
  (forall e, In e c -> portNeed (info (dst e)) (dstPort e) <= r /\ numerator (info (dst e)) <= r /\ stride (info (dst e)) <= r) /\
  (r = n \/ exists e, In e c /\ (r = portNeed (info (dst e)) (dstPort e) \/ r = numerator (info (dst e)) \/ r = stride (info (dst e)))).
Proof.
  induction c as [|e c IH]; intros n Hs Hn; cbv zeta; cbn [fold_left].
  - split; [lia|]. split; [intros e []|left; reflexivity].
  - pose proof (destNeed_max (info (dst e)) (dstPort e) n (Hs e (or_introl eq_refl)) Hn) as E. rewrite E.
    destruct (IH (Z.max n (Z.max (portNeed (info (dst e)) (dstPort e)) (Z.max (numerator (info (dst e))) (stride (info (dst e)))))))
      as (I1 & I2 & I3); [intros x Hx; apply Hs; right; exact Hx|lia|].
    cbv zeta in I1, I2, I3. set (r := fold_left _ c _) in *. split; [lia|]. split.
    + intros x [<-|Hx]; [lia|apply I2; exact Hx].
    + destruct I3 as [I3|(x & Hx & I3)]; [|right; exists x; split; [right; exact Hx|exact I3]].
      assert (D : r = n \/ r = portNeed (info (dst e)) (dstPort e) \/ r = numerator (info (dst e)) \/ r = stride (info (dst e))) by lia.
      destruct D as [D|D]; [left; exact D|right; exists e; split; [left; reflexivity|exact D]].
Qed.

Lemma samplesNeeded_spec info e0 rest : sane (info (src e0)) -> (forall e, In e (e0 :: rest) -> sane (info (dst e))) ->
  let r := samplesNeeded info (e0 :: rest) in
  1 <= r /\ numerator (info (src e0)) / denominator (info (src e0)) <= r /\ stride (info (src e0)) <= r /\
  (forall e, In e (e0 :: rest) -> portNeed (info (dst e)) (dstPort e) <= r /\ numerator (info (dst e)) <= r /\ stride (info (dst e)) <= r) /\
  (r = 1 \/ r = numerator (info (src e0)) / denominator (info (src e0)) \/ r = stride (info (src e0)) \/
   exists e, In e (e0 :: rest) /\ (r = portNeed (info (dst e)) (dstPort e) \/ r = numerator (info (dst e)) \/ r = stride (info (dst e)))).
Proof.
  intros Hs0 Hs. cbv zeta. unfold samplesNeeded.
  pose proof (sourceNeed_max _ Hs0) as E. rewrite E.
  destruct (needs_ge info (e0 :: rest) (Z.max 1 (Z.max (numerator (info (src e0)) / denominator (info (src e0))) (stride (info (src e0))))) Hs) as (I1 & I2 & I3); [lia|].
  cbv zeta in I1, I2, I3. set (r := fold_left _ (e0 :: rest) _) in *.
  split; [lia|]. split; [lia|]. split; [lia|]. split; [exact I2|].
  destruct I3 as [I3|I3]; [lia|right; right; right; exact I3].
Qed.

Lemma flows_steady num den need bs k : 0 < k ->
  (forall b, In b bs -> num b = den b /\ 0 < num b /\ (num b | k) /\ need b <= k) -> flows num den need bs k.
Proof.
  intros Hk. induction bs as [|b bs IH]; intros H; cbn [flows]; [trivial|].
  destruct (H b (or_introl eq_refl)) as (E & Hp & [q Hq] & Hn).
  split; [exact Hn|]. assert (X : passes (num b) (den b) k = k).
  { unfold passes. rewrite <- E, Hq. rewrite Z.div_mul by lia. reflexivity. }
  rewrite X. split; [|apply IH; intros c Hc; apply H; right; exact Hc].
  subst k. assert (0 < q) by nia. nia.
Qed.

(** ** Ports without collections *)
Local Open Scope nat_scope.

Lemma singles_before ports t : (forall p, In p ports -> exists n, p = SinglePort n) -> t <= length ports -> widthBefore ports t = t.
Proof.
  intros H. unfold widthBefore. revert t. induction ports as [|p ports IH]; intros t L; cbn in L; [destruct t; [reflexivity|lia]|].
  destruct t as [|t]; [reflexivity|]. cbn. destruct (H p (or_introl eq_refl)) as (n & ->). cbn. f_equal.
  apply IH; [intros q Hq; apply H; right; exact Hq|lia].
Qed.

Lemma portBase_plain s : plainName s -> portBase s = s.
Proof.
  unfold plainName. induction s as [|c s IH]; intros H; cbn in *; [reflexivity|].
  destruct (Ascii.eqb_spec c "#"%char) as [->|N]; [exfalso; apply H; left; reflexivity|]. f_equal. apply IH. tauto.
Qed.

Lemma portIndex_first ports n : forall t,
  (forall p, In p ports -> exists n, p = SinglePort n) ->
  nth_error ports t = Some (SinglePort n) -> (forall t', t' < t -> nth_error ports t' <> Some (SinglePort n)) ->
  portIndex ports n = Some t.
Proof.
  induction ports as [|p ports IH]; intros t Hs Ht Hb; [destruct t; discriminate|].
  destruct (Hs p (or_introl eq_refl)) as (m & ->). cbn [portIndex inPortName]. destruct t as [|t].
  - cbn in Ht. injection Ht as ->. rewrite String.eqb_refl. reflexivity.
  - cbn in Ht. destruct (String.eqb_spec m n) as [->|N]; [exfalso; apply (Hb 0); [lia|reflexivity]|].
    rewrite (IH t); [reflexivity|intros q Hq; apply Hs; right; exact Hq|exact Ht|].
    intros t' L. apply (Hb (S t')). lia.
Qed.

Lemma leadsTo_index i p k : (forall q, In q (inPorts i) -> exists n, q = SinglePort n /\ plainName n) ->
  leadsTo (inPorts i) p k -> destPortIdx i p = Some k.
Proof.
  intros H L.
  assert (H' : forall q, In q (inPorts i) -> exists n, q = SinglePort n).
  { intros q Hq. destruct (H q Hq) as (n & -> & _). exists n. reflexivity. }
  destruct L as [t sub n E|t s n size E _|n t E Hb].
  - cbn. rewrite singles_before; [reflexivity|exact H'|].
    assert (N.to_nat t < length (inPorts i)) by (apply nth_error_Some; congruence). lia.
  - exfalso. destruct (H' _ (nth_error_In _ _ E)) as (m & X). discriminate.
  - cbn [destPortIdx]. destruct (H _ (nth_error_In _ _ E)) as (m & X & P). injection X as <-.
    rewrite portBase_plain by exact P. rewrite (portIndex_first _ n t H' E Hb). f_equal. symmetry. apply singles_before; [exact H'|].
    assert (t < length (inPorts i)) by (apply nth_error_Some; congruence). lia.
Qed.
