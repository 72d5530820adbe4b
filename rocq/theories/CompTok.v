(** * The matcher: the tokens stand for the data, whatever the chains hold. *)
From Coq Require Import List NArith Bool Lia Arith.
From Coq Require Import ZifyBool ZifyNat ZifyN.
From Verif Require Import Base CompModel CompSpec CompBits CompDec.
Import ListNotations.
Local Open Scope N_scope.

(** A token of the codec as a token of the format. *)
Definition tok (t : Token) : token := if isLiteral t then Lit (tvalue t) else Ref (tvalue t) (tdistance t).
Definition tokOk (t : Token) : Prop :=
  (tdistance t = 0 /\ tvalue t < 256) \/ (3 <= tvalue t <= 258 /\ 1 <= tdistance t <= 32768).

Lemma matchLength_spec data offset pos : forall k len, (forall i, i < len -> dataAt data (offset + i) = dataAt data (pos + i)) ->
  let r := matchLength k data offset pos len in len <= r <= len + N.of_nat k /\ forall i, i < r -> dataAt data (offset + i) = dataAt data (pos + i).
Proof.
  induction k as [|k IH]; intros len H; cbn [matchLength].
  - split; [lia|exact H].
  - destruct (N.eqb_spec (dataAt data (offset + len)) (dataAt data (pos + len))) as [E|E].
    + destruct (IH (len + 1)) as [H1 H2].
      { intros i Hi. destruct (N.eq_dec i len) as [->|Hne]; [exact E|]. apply H. lia. }
      split; [lia|exact H2].
    + split; [lia|exact H].
Qed.
(** A match at [pos]: the same bytes, [mdistance] before. *)
Definition goodMatch (data : list N) (pos : N) (m : Match) : Prop :=
  3 <= mlength m <= 258 /\ mlength m <= bytesN data - pos /\ 1 <= mdistance m <= 32768 /\ mdistance m <= pos /\
  forall i, i < mlength m -> dataAt data (pos - mdistance m + i) = dataAt data (pos + i).
Lemma findLoop_spec data base chainSize c pos limit oldest : limit = N.min 258 (bytesN data - pos) -> base <= oldest -> base + pos - 32768 <= oldest ->
  forall k candidate b, (mlength b = 0 \/ goodMatch data pos b) ->
  let r := findLoop k data base chainSize c pos limit oldest candidate b in mlength r = 0 \/ goodMatch data pos r.
Proof.
  intros Hlim Hb Ho. induction k as [|k IH]; intros candidate b H; cbn [findLoop]; [exact H|].
  destruct (N.ltb_spec oldest candidate) as [H1|]; cbn [andb]; [|exact H].
  destruct (N.leb_spec candidate (base + pos)) as [H2|]; [|exact H].
  set (len := matchLength _ _ _ _ _). pose proof (matchLength_spec data (candidate - 1 - base) pos (N.to_nat limit) 0 ltac:(intros; lia)) as Hm. fold len in Hm. cbn zeta in Hm. destruct Hm as [L1 L2].
  destruct (N.leb_spec 3 len) as [H3|]; cbn [andb]; [|apply IH, H].
  destruct (N.ltb_spec (mlength b) len) as [H4|]; [|apply IH, H].
  assert (G : goodMatch data pos {| mlength := len; mdistance := base + pos - (candidate - 1) |}).
  { unfold goodMatch. cbn [mlength mdistance]. repeat split; try lia. intros i Hi. rewrite <- L2 by exact Hi. f_equal. lia. }
  destruct (len =? kMaxMatchLength); [right; exact G|]. apply IH. right. exact G.
Qed.
Lemma find_spec level data base chainSize c pos : let m := find level data base chainSize c pos in mlength m = 0 \/ goodMatch data pos m.
Proof.
  unfold find. destruct (N.leb_spec (bytesN data) (pos + 2)); [left; reflexivity|].
  apply findLoop_spec; [reflexivity| | |left; reflexivity]; [lia|].
  unfold kWindowSize. destruct (N.ltb_spec 32768 (base + pos)); lia.
Qed.
Lemma dataAt_nth data i : dataAt data (N.of_nat i) = nth i data 0.
Proof. unfold dataAt. rewrite Nat2N.id. reflexivity. Qed.
Lemma firstn_snoc {A} (l : list A) i d : (i < length l)%nat -> firstn (S i) l = firstn i l ++ [nth i l d].
Proof.
  revert i; induction l as [|x l IH]; intros [|i] H; cbn [length] in H; try lia; cbn [firstn nth app]; [reflexivity|]. f_equal. apply IH. lia.
Qed.
Lemma lzCopy_data data d : (1 <= d)%nat -> forall n p, (d <= p)%nat -> (p + n <= length data)%nat ->
  (forall i, (i < n)%nat -> nth (p - d + i) data 0 = nth (p + i) data 0) -> lzCopy n d (firstn p data) = firstn (p + n) data.
Proof.
  intros Hd. induction n as [|n IH]; intros p Hp Hl H; cbn [lzCopy]; [f_equal; lia|].
  assert (Lp : length (firstn p data) = p) by (rewrite firstn_length; lia). rewrite Lp.
  assert (E : nth (p - d) (firstn p data) 0 = nth p data 0).
  { specialize (H 0%nat ltac:(lia)). rewrite !Nat.add_0_r in H. rewrite <- H. symmetry. rewrite <- (firstn_skipn p data) at 1. apply app_nth1. lia. }
  rewrite E, <- firstn_snoc by lia. rewrite IH; [f_equal; lia|lia|lia|]. intros i Hi. specialize (H (S i) ltac:(lia)). 
  replace (S p - d + i)%nat with (p - d + S i)%nat by lia. replace (S p + i)%nat with (p + S i)%nat by lia. exact H.
Qed.
Lemma tokenLoop_spec level data base chainSize : octets data -> forall fuel c pos, pos <= bytesN data -> (N.to_nat (bytesN data - pos) <= fuel)%nat ->
  let ts := fst (tokenLoop fuel level data base chainSize c pos) in
  expand (firstn (N.to_nat pos) data) (map tok ts) data /\ Forall tokOk ts /\ (length ts <= N.to_nat (bytesN data - pos))%nat.
Proof.
  intros Ho. assert (Hend : forall pos, bytesN data <= pos -> expand (firstn (N.to_nat pos) data) (map tok []) data /\ Forall tokOk [] /\ (length (@nil Token) <= N.to_nat (bytesN data - pos))%nat).
  { intros pos H. rewrite firstn_all2 by (unfold bytesN in *; lia). split; [constructor|]. split; [constructor|cbn; lia]. }
  induction fuel as [|k IH]; intros c pos Hp Hf; [apply Hend; lia|]. cbn [tokenLoop].
  destruct (N.leb_spec (bytesN data) pos) as [H|H]; [apply Hend, H|].
  set (m := find level data base chainSize c pos). pose proof (find_spec level data base chainSize c pos) as Hm. fold m in Hm. cbn zeta in Hm.
  assert (HL : forall c', let r := tokenLoop k level data base chainSize c' (pos + 1) in let ts := literal data pos :: fst r in
     expand (firstn (N.to_nat pos) data) (map tok ts) data /\ Forall tokOk ts /\ (length ts <= N.to_nat (bytesN data - pos))%nat).
  { intros c'. destruct (IH c' (pos + 1) ltac:(lia) ltac:(lia)) as (E & F & L). cbn zeta. split; [|split; [constructor; [|exact F]|cbn [length]; lia]].
    - cbn [map]. change (tok (literal data pos)) with (Lit (nth (N.to_nat pos) data 0)). apply ex_lit.
      rewrite <- firstn_snoc by (unfold bytesN in *; lia). replace (S (N.to_nat pos)) with (N.to_nat (pos + 1)) by lia. exact E.
    - left. split; [reflexivity|]. cbn [tvalue literal]. unfold dataAt.
      destruct (nth_in_or_default (N.to_nat pos) data 0) as [Hi| ->]; [|reflexivity]. apply (proj1 (Forall_forall _ _) Ho), Hi. }
  assert (HC : 3 <= mlength m -> forall c' , let r := tokenLoop k level data base chainSize c' (pos + mlength m) in
     let ts := {| tvalue := tr 16 (mlength m); tdistance := tr 16 (mdistance m) |} :: fst r in
     expand (firstn (N.to_nat pos) data) (map tok ts) data /\ Forall tokOk ts /\ (length ts <= N.to_nat (bytesN data - pos))%nat).
  { intros H3 c'. destruct Hm as [Hm|(G1 & G2 & G3 & G4 & G5)]; [lia|]. destruct (IH c' (pos + mlength m) ltac:(lia) ltac:(lia)) as (E & F & L).
    cbn zeta. rewrite (tr_small 16 (mlength m)), (tr_small 16 (mdistance m)) by (change (2 ^ 16) with 65536; lia).
    split; [|split; [constructor; [|exact F]|cbn [length]; lia]].
    - cbn [map]. unfold tok at 1, isLiteral. cbn [tdistance tvalue]. destruct (N.eqb_spec (mdistance m) 0) as [|_]; [lia|].
      apply ex_ref; [lia|rewrite firstn_length; unfold bytesN in *; lia|].
      rewrite lzCopy_data; [|lia|lia|unfold bytesN in *; lia|]; [replace (N.to_nat pos + N.to_nat (mlength m))%nat with (N.to_nat (pos + mlength m)) by lia; exact E|].
      intros i Hi. specialize (G5 (N.of_nat i) ltac:(lia)). unfold dataAt in G5.
      replace (N.to_nat (pos - mdistance m + N.of_nat i)) with (N.to_nat pos - N.to_nat (mdistance m) + i)%nat in G5 by lia.
      replace (N.to_nat (pos + N.of_nat i)) with (N.to_nat pos + i)%nat in G5 by lia. exact G5.
    - right. cbn [tvalue tdistance]. lia. }
  destruct (lazyMatching level && (3 <=? mlength m)) eqn:EL.
  - apply andb_true_iff in EL. destruct EL as [_ EL]. apply N.leb_le in EL.
    destruct (mlength m <? _); [apply HL|apply HC; exact EL].
  - destruct (N.leb_spec 3 (mlength m)) as [H3|_]; [apply HC; exact H3|apply HL].
Qed.
Theorem tokenize_spec level data base indexedFrom tokenFrom chainSize c : octets data -> tokenFrom <= bytesN data ->
  let ts := fst (tokenize level data base indexedFrom tokenFrom chainSize c) in
  expand (firstn (N.to_nat tokenFrom) data) (map tok ts) data /\ Forall tokOk ts /\ (length ts <= N.to_nat (bytesN data - tokenFrom))%nat.
Proof. intros Ho Ht. unfold tokenize. apply tokenLoop_spec; [exact Ho|exact Ht|unfold bytesN in *; lia]. Qed.

(** * Length and distance symbols *)
Definition lengthFact (len : N) : bool :=
  let e := encodeLength len in let i := (esym e - 257)%nat in
  (257 <=? esym e)%nat && (i <? 29)%nat && (ebits e =? lengthExtra i)%nat && (eextra e <? 2 ^ N.of_nat (lengthExtra i)) && (lengthBase i + eextra e =? len).
Definition distFact (d : N) : bool :=
  let e := encodeDistance d in let i := esym e in
  (i <? 30)%nat && (ebits e =? distExtra i)%nat && (eextra e <? 2 ^ N.of_nat (distExtra i)) && (distBase i + eextra e =? d).
(** The domains are finite: every length and distance is checked. *)
Fixpoint upto (n : nat) (v : N) (p : N -> bool) : bool := match n with O => true | S k => p v && upto k (v + 1) p end.
Lemma upto_spec n : forall v p, upto n v p = true -> forall x, v <= x -> x < v + N.of_nat n -> p x = true.
Proof.
  induction n as [|n IH]; intros v p H x H1 H2; [lia|]. cbn [upto] in H. apply andb_true_iff in H. destruct H as [Hp H].
  destruct (N.eq_dec x v) as [->|]; [exact Hp|]. apply (IH _ _ H); lia.
Qed.
Lemma lengthFacts : upto 256 3 lengthFact = true.
Proof. vm_compute. reflexivity. Qed.
Lemma distFacts : upto (N.to_nat 32768) 1 distFact = true.
Proof. vm_compute. reflexivity. Qed.
Lemma encodeLength_spec len : 3 <= len <= 258 -> exists i, (i < 29)%nat /\ esym (encodeLength len) = (257 + i)%nat /\ ebits (encodeLength len) = lengthExtra i /\
  eextra (encodeLength len) < 2 ^ N.of_nat (lengthExtra i) /\ lengthBase i + eextra (encodeLength len) = len.
Proof.
  intros H. pose proof (upto_spec _ _ _ lengthFacts len ltac:(lia) ltac:(lia)) as F. unfold lengthFact in F. cbn zeta in F.
  rewrite !andb_true_iff in F. destruct F as [[[[F1 F2] F3] F4] F5]. exists (esym (encodeLength len) - 257)%nat.
  apply Nat.leb_le in F1. apply Nat.ltb_lt in F2. apply Nat.eqb_eq in F3. apply N.ltb_lt in F4. apply N.eqb_eq in F5. repeat split; try assumption. lia.
Qed.
Lemma encodeDistance_spec d : 1 <= d <= 32768 -> exists i, (i < 30)%nat /\ esym (encodeDistance d) = i /\ ebits (encodeDistance d) = distExtra i /\
  eextra (encodeDistance d) < 2 ^ N.of_nat (distExtra i) /\ distBase i + eextra (encodeDistance d) = d.
Proof.
  intros H. pose proof (upto_spec _ _ _ distFacts d ltac:(lia) ltac:(lia)) as F. unfold distFact in F. cbn zeta in F.
  rewrite !andb_true_iff in F. destruct F as [[[F2 F3] F4] F5]. exists (esym (encodeDistance d)).
  apply Nat.ltb_lt in F2. apply Nat.eqb_eq in F3. apply N.ltb_lt in F4. apply N.eqb_eq in F5. repeat split; assumption.
Qed.
