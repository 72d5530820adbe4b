(** * The encoder writes what the formats ask for. *)
From Coq Require Import List NArith Bool Lia Arith.
From Coq Require Import ZifyBool ZifyNat ZifyN.
From Verif Require Import Base CompModel CompSpec CompBits CompHuff CompDec CompBlk CompWrap CompTop CompTok CompLens CompCode.
Import ListNotations.
Local Open Scope N_scope.

(** * Runs of bit writes *)
Definition wr (ops : list op) (bs : list bool) : Prop := Forall isBits ops /\ flat_map opBits ops = bs.
Lemma wr_nil : wr [] [].
Proof. split; [constructor|reflexivity]. Qed.
Lemma wr_app a b x y : wr a x -> wr b y -> wr (a ++ b) (x ++ y).
Proof. intros [A1 A2] [B1 B2]. split; [apply Forall_app; auto|]. rewrite flat_map_app, A2, B2. reflexivity. Qed.
Lemma wr_one o bs : writes o bs -> wr [o] bs.
Proof. intros [H1 H2]. split; [constructor; [exact H1|constructor]|]. cbn [flat_map]. rewrite app_nil_r. exact H2. Qed.
Lemma wr_cons o a x y : writes o x -> wr a y -> wr (o :: a) (x ++ y).
Proof. intros H1 H2. apply (wr_app [o] a); [apply wr_one, H1|exact H2]. Qed.
Lemma writes_bits v n : (n <= 32)%nat -> v < 2 ^ N.of_nat n -> writes (WBits v n) (lsb n v).
Proof. intros H1 H2. split; [split; assumption|reflexivity]. Qed.
Lemma wr_flat {A} (f : A -> list op) (g : A -> list bool) l : (forall x, In x l -> wr (f x) (g x)) -> wr (flat_map f l) (flat_map g l).
Proof. induction l as [|x l IH]; intros H; cbn [flat_map]; [apply wr_nil|]. apply wr_app; [apply H; left; reflexivity|apply IH; intros y Hy; apply H; right; exact Hy]. Qed.

(** * Tokens *)
Definition litSym (t : Token) : nat := if isLiteral t then N.to_nat (tvalue t) else esym (encodeLength (tvalue t)).
Definition distSyms (t : Token) : list nat := if isLiteral t then [] else [esym (encodeDistance (tdistance t))].
Definition emitTok (eL eD : nat -> op) (t : Token) : list op :=
  if isLiteral t then [eL (N.to_nat (tvalue t))]
  else let l := encodeLength (tvalue t) in let d := encodeDistance (tdistance t) in
       [eL (esym l); WBits (eextra l) (ebits l); eD (esym d); WBits (eextra d) (ebits d)].
Lemma extra_small i j : (i < 29)%nat -> (j < 30)%nat -> (lengthExtra i <= 32)%nat /\ (distExtra j <= 32)%nat.
Proof.
  intros Hi Hj. split.
  - unfold lengthExtra. destruct ((i <? 8)%nat || (i =? 28)%nat); [lia|]. assert (i / 4 <= i)%nat by (apply Nat.div_le_upper_bound; lia). lia.
  - unfold distExtra. destruct (j <? 4)%nat; [lia|]. assert (j / 2 <= j)%nat by (apply Nat.div_le_upper_bound; lia). lia.
Qed.
Lemma emitTok_bits lit dist eL eD t : tokOk t -> hasCode lit (litSym t) -> (forall s, In s (distSyms t) -> hasCode dist s) ->
  writes (eL (litSym t)) (codeword lit (litSym t)) -> (forall s, In s (distSyms t) -> writes (eD s) (codeword dist s)) ->
  exists b, wr (emitTok eL eD t) b /\ tokenBits lit dist (tok t) b.
Proof.
  intros [[Hd Hv]|[Hv Hd]] Hc Hc2 Hw Hw2; unfold emitTok, litSym, distSyms, tok in *.
  - assert (E : isLiteral t = true) by (unfold isLiteral; apply N.eqb_eq, Hd). rewrite E in *. eexists. split; [apply wr_one; exact Hw|]. apply tb_lit; assumption.
  - assert (E : isLiteral t = false) by (unfold isLiteral; apply N.eqb_neq; lia). rewrite E in *. specialize (Hc2 _ (or_introl eq_refl)). specialize (Hw2 _ (or_introl eq_refl)).
    destruct (encodeLength_spec _ Hv) as (i & Hi & Ei & Eb & Ex & Ev). destruct (encodeDistance_spec _ Hd) as (j & Hj & Ej & Fb & Fx & Fv).
    destruct (extra_small i j Hi Hj) as [X1 X2]. cbn zeta.
    exists (codeword lit (257 + i) ++ lsb (lengthExtra i) (eextra (encodeLength (tvalue t))) ++ codeword dist j ++ lsb (distExtra j) (eextra (encodeDistance (tdistance t)))).
    rewrite Ei, Ej, Eb, Fb in *. split.
    + apply wr_cons; [exact Hw|]. apply wr_cons; [apply writes_bits; assumption|]. apply wr_cons; [exact Hw2|]. apply wr_one, writes_bits; assumption.
    + rewrite <- Ev at 1. rewrite <- Fv at 1. apply tb_ref; assumption.
Qed.
Lemma body_bits lit dist (emitT : Token -> list op) endOp ts : (forall t, In t ts -> exists b, wr (emitT t) b /\ tokenBits lit dist (tok t) b) ->
  hasCode lit 256 -> writes endOp (codeword lit 256) -> exists bs, wr (flat_map emitT ts ++ [endOp]) bs /\ bodyBits lit dist (map tok ts) bs.
Proof.
  intros H Hc He. induction ts as [|t ts IH]; cbn [flat_map map app].
  - eexists. split; [apply wr_one, He|]. apply bb_end, Hc.
  - destruct (H t (or_introl eq_refl)) as (b & B1 & B2). destruct (IH (fun x Hx => H x (or_intror Hx))) as (bs & C1 & C2).
    exists (b ++ bs). split; [rewrite <- app_assoc; apply wr_app; assumption|]. apply bb_tok; assumption.
Qed.

(** * The fixed code *)
Definition boolsEq (a b : list bool) : bool := if list_eq_dec Bool.bool_dec a b then true else false.
Lemma boolsEq_eq a b : boolsEq a b = true -> a = b.
Proof. unfold boolsEq. destruct (list_eq_dec Bool.bool_dec a b); [auto|discriminate]. Qed.
Definition codeFact (lens : list nat) (e : N * nat) (s : nat) : bool :=
  (fst e <? 2 ^ N.of_nat (snd e)) && (snd e <=? 32)%nat && boolsEq (lsb (snd e) (fst e)) (codeword lens s) && negb (nth s lens 0 =? 0)%nat.
Lemma fixedFacts : forallb (fun s => codeFact fixedLitLens (fixedLiteralCode s) s) (seq 0 286) = true.
Proof. vm_compute. reflexivity. Qed.
Lemma fixedDistFacts : forallb (fun s => codeFact fixedDistLens (fixedDistanceCode s) s) (seq 0 30) = true.
Proof. vm_compute. reflexivity. Qed.
Lemma codeFact_writes lens e s : codeFact lens e s = true -> writes (WBits (fst e) (snd e)) (codeword lens s) /\ hasCode lens s.
Proof.
  unfold codeFact. rewrite !andb_true_iff. intros [[[H1 H2] H3] H4]. apply N.ltb_lt in H1. apply Nat.leb_le in H2. apply boolsEq_eq in H3. apply negb_true_iff, Nat.eqb_neq in H4.
  split; [split; [split; assumption|exact H3]|exact H4].
Qed.
Lemma litSym_lt t : tokOk t -> (litSym t < 286)%nat /\ litSym t <> 256%nat /\ Forall (fun s => (s < 30)%nat) (distSyms t).
Proof.
  intros [[Hd Hv]|[Hv Hd]]; unfold litSym, distSyms.
  - assert (E : isLiteral t = true) by (unfold isLiteral; apply N.eqb_eq, Hd). rewrite E. split; [lia|]. split; [lia|constructor].
  - assert (E : isLiteral t = false) by (unfold isLiteral; apply N.eqb_neq; lia). rewrite E.
    destruct (encodeLength_spec _ Hv) as (i & Hi & Ei & _). destruct (encodeDistance_spec _ Hd) as (j & Hj & Ej & _). rewrite Ei, Ej.
    split; [lia|]. split; [lia|]. constructor; [exact Hj|constructor].
Qed.
Lemma fixed_code s : (s < 286)%nat -> writes (WBits (fst (fixedLiteralCode s)) (snd (fixedLiteralCode s))) (codeword fixedLitLens s) /\ hasCode fixedLitLens s.
Proof. intros H. apply codeFact_writes. pose proof fixedFacts as F. rewrite forallb_forall in F. apply F, in_seq. lia. Qed.
Lemma fixed_dist s : (s < 30)%nat -> writes (WBits (fst (fixedDistanceCode s)) (snd (fixedDistanceCode s))) (codeword fixedDistLens s) /\ hasCode fixedDistLens s.
Proof. intros H. apply codeFact_writes. pose proof fixedDistFacts as F. rewrite forallb_forall in F. apply F, in_seq. lia. Qed.
Lemma fixed_body ts : Forall tokOk ts -> exists bs, wr (emitTokensFixed ts) bs /\ bodyBits fixedLitLens fixedDistLens (map tok ts) bs.
Proof.
  intros H. unfold emitTokensFixed. destruct (fixed_code 256 ltac:(lia)) as [W H256]. apply body_bits; [|exact H256|exact W].
  intros t Ht. rewrite Forall_forall in H. specialize (H t Ht). destruct (litSym_lt t H) as (L1 & _ & L2). rewrite Forall_forall in L2.
  apply (emitTok_bits fixedLitLens fixedDistLens (fun s => WBits (fst (fixedLiteralCode s)) (snd (fixedLiteralCode s))) (fun s => WBits (fst (fixedDistanceCode s)) (snd (fixedDistanceCode s)))); [exact H|apply fixed_code, L1| |apply fixed_code, L1|].
  - intros s Hs. apply fixed_dist, L2, Hs.
  - intros s Hs. apply fixed_dist, L2, Hs.
Qed.

(** * The dynamic code *)
Lemma freq_fold : forall ts a b,
  fold_left (fun (fd : list N * list N) t => if isLiteral t then (bump (fst fd) (N.to_nat (tvalue t)), snd fd)
      else (bump (fst fd) (esym (encodeLength (tvalue t))), bump (snd fd) (esym (encodeDistance (tdistance t))))) ts (a, b)
  = (fold_left bump (map litSym ts) a, fold_left bump (flat_map distSyms ts) b).
Proof.
  induction ts as [|t ts IH]; intros a b; [reflexivity|]. cbn [fold_left map flat_map]. destruct (isLiteral t) eqn:E; rewrite IH; cbn [fst snd].
  - assert (E1 : litSym t = N.to_nat (tvalue t)) by (unfold litSym; rewrite E; reflexivity). assert (E2 : distSyms t = []) by (unfold distSyms; rewrite E; reflexivity). rewrite E1, E2. reflexivity.
  - assert (E1 : litSym t = esym (encodeLength (tvalue t))) by (unfold litSym; rewrite E; reflexivity). assert (E2 : distSyms t = [esym (encodeDistance (tdistance t))]) by (unfold distSyms; rewrite E; reflexivity). rewrite E1, E2. reflexivity.
Qed.
Lemma nth_zerosN i n : nth i (repeat 0 n) 0 = 0.
Proof. revert i; induction n as [|n IH]; intros [|i]; cbn; auto. Qed.
Lemma freqs_spec ts : Forall tokOk ts -> N.of_nat (length ts) + 1 < 2 ^ 32 -> let fd := tokenFrequencies ts in
  length (fst fd) = 286%nat /\ length (snd fd) = 30%nat /\ nth 256 (fst fd) 0 <> 0 /\
  (forall t, In t ts -> nth (litSym t) (fst fd) 0 <> 0 /\ forall s, In s (distSyms t) -> nth s (snd fd) 0 <> 0).
Proof.
  intros Ht Hl. unfold tokenFrequencies. rewrite freq_fold. cbn [fst snd].
  assert (E : bump (fold_left bump (map litSym ts) (repeat 0 286)) 256 = fold_left bump (map litSym ts ++ [256%nat]) (repeat 0 286)) by (rewrite fold_left_app; reflexivity).
  rewrite E. clear E. destruct (bumps_spec (map litSym ts ++ [256%nat]) (repeat 0 286)) as (A1 & A2 & A3).
  { intros i. rewrite nth_zerosN, app_length, map_length. cbn [length]. lia. }
  assert (Hd : (length (flat_map distSyms ts) <= length ts)%nat).
  { clear. induction ts as [|t ts IH]; cbn [flat_map length]; [lia|]. rewrite app_length. unfold distSyms at 1. destruct (isLiteral t); cbn [length]; lia. }
  destruct (bumps_spec (flat_map distSyms ts) (repeat 0 30)) as (B1 & B2 & B3).
  { intros i. rewrite nth_zerosN. lia. }
  cbn zeta in *. rewrite repeat_length in *. split; [exact A1|]. split; [exact B1|]. rewrite Forall_forall in Ht. split.
  - apply A3; [|lia]. apply in_or_app. right. left. reflexivity.
  - intros t Hin. destruct (litSym_lt t (Ht t Hin)) as (L1 & _ & L2). rewrite Forall_forall in L2. split.
    + apply A3; [|exact L1]. apply in_or_app. left. apply in_map, Hin.
    + intros s Hs. apply B3; [|apply L2, Hs]. apply in_flat_map. exists t. auto.
Qed.
Lemma trimmed M l k : (forall i, (k <= i < length l)%nat -> nth i l 0%nat = 0%nat) -> complete M l ->
  complete M (firstn k l) /\ forall s, hasCode l s -> hasCode (firstn k l) s /\ codeword l s = codeword (firstn k l) s.
Proof.
  intros Hz [Hle Hk]. pose proof (cut_zeros l k Hz) as E. split.
  - split; [rewrite E in Hle; apply Forall_app in Hle; apply Hle|]. rewrite <- Hk, E at 2 || (rewrite <- Hk; rewrite E at 2). rewrite kraft_zeros_app. reflexivity.
  - intros s Hs. assert (Hs2 : hasCode (firstn k l) s) by (unfold hasCode in *; rewrite E, nth_zeros_app in Hs; exact Hs). split; [exact Hs2|].
    rewrite E at 1. apply codeword_zeros, Hs2.
Qed.
Lemma firstn_map_seq {A} (d : A) (l : list A) : forall n, (n <= length l)%nat -> firstn n l = map (fun i => nth i l d) (seq 0 n).
Proof.
  intros n. revert l. induction n as [|n IH]; intros l H; [reflexivity|]. destruct l as [|x l]; [cbn in H; lia|]. cbn [length] in H. cbn [firstn seq map nth]. f_equal.
  rewrite <- seq_shift, map_map. apply IH. lia.
Qed.
Definition dynBits (c : DynamicCoding) : list op :=
  [WBits (N.of_nat (dlitCount c - 257)) 5; WBits (N.of_nat (ddistCount c - 1)) 5; WBits (N.of_nat (dclCount c - 4)) 4]
  ++ map (fun i => WBits (N.of_nat (nth (nth i kCodeLengthOrder 0%nat) (clengths (dcl c)) 0%nat)) 3) (seq 0 (dclCount c))
  ++ flat_map (fun t => [writeCode (dcl c) (ksym t); WBits (kextra t) (kbits t)]) (dtokens c).
Lemma order_perm i : (i < 19)%nat -> exists j, (j < 19)%nat /\ nth j kCodeLengthOrder 0%nat = i.
Proof.
  intros H. assert (F : forallb (fun i => existsb (fun j => (nth j kCodeLengthOrder 0 =? i)%nat) (seq 0 19)) (seq 0 19) = true) by reflexivity.
  rewrite forallb_forall in F. specialize (F i ltac:(apply in_seq; lia)). apply existsb_exists in F. destruct F as (j & Hj & Ej). apply in_seq in Hj. apply Nat.eqb_eq in Ej. exists j. split; [lia|exact Ej].
Qed.
Lemma dynamic_block ts off out out' : Forall tokOk ts -> N.of_nat (length ts) + 1 < 2 ^ 32 -> expand out (map tok ts) out' ->
  let c := makeDynamicCoding ts in exists bs, wr (dynBits c ++ emitTokensDynamic ts c) bs /\ block off out bs 2 out'.
Proof.
  intros Ht Hl He. destruct (freqs_spec ts Ht Hl) as (F1 & F2 & F3 & F4). cbn zeta in *. unfold makeDynamicCoding.
  set (fd := tokenFrequencies ts) in *. clearbody fd.
  destruct (makeCodeLengths_spec 15 (fst fd)) as (L1 & L2 & L3); [lia|lia|rewrite F1; change (2 ^ N.of_nat 15) with 32768; lia|].
  destruct (makeCodeLengths_spec 15 (snd fd)) as (D1 & D2 & D3); [lia|lia|rewrite F2; change (2 ^ N.of_nat 15) with 32768; lia|].
  cbn zeta in *. set (lit := makeCodeLengths 15 (fst fd)) in *. set (dist := makeCodeLengths 15 (snd fd)) in *. clearbody lit dist. rewrite F1 in L1. rewrite F2 in D1.
  destruct (trimCount_spec 257 (fun i => nth i lit 0%nat) 286 ltac:(lia)) as [NL1 NL2]. destruct (trimCount_spec 1 (fun i => nth i dist 0%nat) 30 ltac:(lia)) as [ND1 ND2].
  set (nl := trimCount 286 257 (fun i => nth i lit 0%nat)) in *. set (nd := trimCount 30 1 (fun i => nth i dist 0%nat)) in *. clearbody nl nd.
  destruct (trimmed 15 lit nl) as [TL1 TL2]; [rewrite L1; exact NL2|exact L2|]. destruct (trimmed 15 dist nd) as [TD1 TD2]; [rewrite D1; exact ND2|exact D2|].
  set (lens := firstn nl lit ++ firstn nd dist).
  assert (Elen : length lens = (nl + nd)%nat) by (unfold lens; rewrite app_length, !firstn_length; lia).
  assert (Hle : Forall (fun l => (l <= 15)%nat) lens) by (apply Forall_app; split; [apply TL1|apply TD1]).
  assert (H16 : Forall (fun t => clOk t) (encodeCodeLengths (length lens) lens) /\ (length (encodeCodeLengths (length lens) lens) <= length lens)%nat).
  { destruct (encodeCodeLengths_bits [] 0 (length lens) lens (le_n _) Hle) as (A & B & _). auto. }
  destruct H16 as [E1 E2]. set (enc := encodeCodeLengths (length lens) lens) in *.
  assert (Ef : fold_left (fun f t => bump f (ksym t)) enc (repeat 0 19) = fold_left bump (map ksym enc) (repeat 0 19)).
  { generalize (repeat 0 19). clear. induction enc as [|t enc IH]; intros f; [reflexivity|]. cbn [fold_left map]. apply IH. }
  rewrite Ef. clear Ef. destruct (bumps_spec (map ksym enc) (repeat 0 19)) as (C1 & _ & C3).
  { intros i. rewrite nth_zerosN, map_length. lia. }
  cbn zeta in *. rewrite repeat_length in *. set (clf := fold_left bump (map ksym enc) (repeat 0 19)) in *. clearbody clf.
  destruct (makeCodeLengths_spec 7 clf) as (K1 & K2 & K3); [lia|lia|rewrite C1; change (2 ^ N.of_nat 7) with 128; lia|].
  cbn zeta in *. set (cl := makeCodeLengths 7 clf) in *. clearbody cl. rewrite C1 in K1.
  destruct (trimCount_spec 4 (fun i => nth (nth i kCodeLengthOrder 0%nat) cl 0%nat) 19 ltac:(lia)) as [NC1 NC2].
  set (nc := trimCount 19 4 (fun i => nth (nth i kCodeLengthOrder 0%nat) cl 0%nat)) in *. clearbody nc.
  assert (Hcl : Forall (fun t => hasCode cl (ksym t)) enc).
  { rewrite Forall_forall in *. intros t Hin. apply K3, C3; [apply in_map, Hin|apply E1, Hin]. }
  destruct (encodeCodeLengths_bits cl (nl + nd) (length lens) lens (le_n _) Hle) as (_ & _ & Hbits). fold enc in Hbits. specialize (Hbits [] Elen Hcl). cbn [app] in Hbits.
  assert (Fl : firstn nl lens = firstn nl lit).
  { unfold lens. rewrite firstn_app. replace (nl - length (firstn nl lit))%nat with 0%nat by (rewrite firstn_length; lia). rewrite firstn_O, app_nil_r. rewrite firstn_firstn, Nat.min_id. reflexivity. }
  assert (Fd : skipn nl lens = firstn nd dist).
  { unfold lens. rewrite skipn_app. rewrite skipn_all2 by (rewrite firstn_length; lia). replace (nl - length (firstn nl lit))%nat with 0%nat by (rewrite firstn_length; lia). reflexivity. }
  pose proof (L3 256%nat F3) as H256.
  assert (Hbody : exists bs, wr (flat_map (emitTok (writeCode (makeCanonicalCodes lit)) (writeCode (makeCanonicalCodes dist))) ts ++ [writeCode (makeCanonicalCodes lit) 256]) bs /\ bodyBits (firstn nl lit) (firstn nd dist) (map tok ts) bs).
  { assert (WL : forall s, hasCode lit s -> writes (writeCode (makeCanonicalCodes lit) s) (codeword (firstn nl lit) s)).
    { intros s Hs. rewrite <- (proj2 (TL2 s Hs)). apply (writeCode_spec 15); [lia|apply L2|destruct L2 as [_ ->]; lia|exact Hs]. }
    assert (WD : forall s, hasCode dist s -> writes (writeCode (makeCanonicalCodes dist) s) (codeword (firstn nd dist) s)).
    { intros s Hs. rewrite <- (proj2 (TD2 s Hs)). apply (writeCode_spec 15); [lia|apply D2|destruct D2 as [_ ->]; lia|exact Hs]. }
    apply body_bits; [|apply TL2, H256|apply WL, H256]. intros t Hin. destruct (F4 t Hin) as [G1 G2]. rewrite Forall_forall in Ht.
    apply emitTok_bits; [apply Ht, Hin|apply TL2, L3, G1|intros s Hs; apply TD2, D3, G2, Hs|apply WL, L3, G1|intros s Hs; apply WD, D3, G2, Hs]. }
  destruct Hbody as (bs & B1 & B2). unfold dynBits, emitTokensDynamic. cbn [dlitCount ddistCount dclCount dcl dlit ddist dtokens makeCanonicalCodes clengths].
  exists (lsb 5 (N.of_nat (nl - 257)) ++ lsb 5 (N.of_nat (nd - 1)) ++ lsb 4 (N.of_nat (nc - 4)) ++ codeLengthBits cl nc ++ clBits cl enc ++ bs). split.
  - repeat rewrite <- app_assoc. rewrite <- !app_comm_cons. cbn [app].
    apply wr_cons; [apply writes_bits; [lia|change (2 ^ N.of_nat 5) with 32; lia]|].
    apply wr_cons; [apply writes_bits; [lia|change (2 ^ N.of_nat 5) with 32; lia]|].
    apply wr_cons; [apply writes_bits; [lia|change (2 ^ N.of_nat 4) with 16; lia]|].
    apply wr_app; [|apply wr_app; [|exact B1]].
    + unfold codeLengthBits. change sendOrder with kCodeLengthOrder. rewrite (firstn_map_seq 0%nat) by (cbn; lia). rewrite flat_map_concat_map, map_map, <- flat_map_concat_map.
      assert (Em : forall l, map (fun i => WBits (N.of_nat (nth (nth i kCodeLengthOrder 0%nat) cl 0%nat)) 3) l = flat_map (fun i => [WBits (N.of_nat (nth (nth i kCodeLengthOrder 0%nat) cl 0%nat)) 3]) l) by (induction l as [|x l IHl]; cbn [map flat_map app]; [reflexivity|f_equal; exact IHl]).
      rewrite Em. apply wr_flat. intros i _. apply wr_one, writes_bits; [lia|]. pose proof (proj1 (Forall_nth_le _ _) (proj1 K2) (nth i kCodeLengthOrder 0%nat)). change (2 ^ N.of_nat 3) with 8. lia.
    + apply wr_flat. intros t Hin. rewrite Forall_forall in E1, Hcl. destruct (E1 t Hin) as (T1 & T2 & T3). unfold clTokenBits. apply wr_cons; [apply (writeCode_spec 7); [lia|apply K2|destruct K2 as [_ ->]; lia|apply Hcl, Hin]|].
      apply wr_one, writes_bits; [lia|exact T3].
  - apply bl_dynamic with (nl := nl) (nd := nd) (nc := nc) (cl := cl) (lens := lens) (ts := map tok ts) (hs := clBits cl enc); rewrite ?Fl, ?Fd; try assumption; try lia.
    + apply TL2, H256.
    + left. exact TL1.
    + left. exact TD1.
Qed.
