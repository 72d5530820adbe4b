(** * The whole-buffer decoders against the formats. *)
From Coq Require Import List NArith Bool Lia Arith.
From Coq Require Import ZifyBool ZifyNat ZifyN.
From Verif Require Import Base CompModel CompSpec CompBits CompHuff CompDec CompBlk CompWrap.
Import ListNotations.
Local Open Scope N_scope.

(** What it means for [bytes] to hold [out] in a format, with the check values right, and with any check values. *)
Definition Encodes (f : Format) (bytes out : list N) : Prop :=
  match f with rawDeflate => Deflate bytes out | zlib => Zlib adlerRight bytes out | gzip => Gzip crc32Of bytes out end.
Definition EncodesUnchecked (f : Format) (bytes out : list N) : Prop :=
  match f with rawDeflate => Deflate bytes out | zlib => Zlib anything bytes out | gzip => Gzip anything bytes out end.

Lemma member_weaken (ok : list N -> N -> Prop) b out : Member ok b out -> Member anything b out.
Proof. intros (hdr & body & c & E & Hc & Hh & Hd & _). exists hdr, body, c. repeat (split; [assumption|]). exact I. Qed.
Lemma gzip_weaken ok b out : Gzip ok b out -> Gzip anything b out.
Proof. induction 1; [apply gz_one; eapply member_weaken; eassumption|apply gz_more; [eapply member_weaken; eassumption|assumption]]. Qed.
Lemma encodes_weaken f b out : Encodes f b out -> EncodesUnchecked f b out.
Proof.
  destruct f; cbn; [auto| |apply gzip_weaken]. intros (cmf & flg & body & c & E & H1 & H2 & H3 & H4 & H5 & H6 & _).
  exists cmf, flg, body, c. repeat (split; [assumption|]). exact I.
Qed.
Lemma rep_count0 limit : rep (Counting 0 0 limit) [] [].
Proof. cbn [rep cap]. unfold bytesN. cbn [app length]. repeat split; lia. Qed.
Lemma rep_span0 b : rep (Span b 0 0) [] [].
Proof. cbn [rep]. cbn. repeat split; lia. Qed.

Lemma cap_min limit : cap (Counting 0 0 limit) <= limit.
Proof. cbn [cap]. lia. Qed.
Lemma count_sound W input f limit n : octets input -> decompressedSize W input f limit = Ok n ->
  exists out, EncodesUnchecked f input out /\ n = bytesN out /\ n <= limit.
Proof.
  intros Hi. unfold decompressedSize. intros H. assert (Hl : forall o', sameKind (Counting 0 0 limit) o' -> cap o' <= limit) by (intros o' [E _]; rewrite E; apply cap_min).
  destruct f; cbn [decompressInto EncodesUnchecked] in *.
  - pose proof (raw_sound input _ [] [] Hi (rep_count0 limit)) as G. destruct (decodeRaw input (Counting 0 0 limit)) as [[m o']|e| |]; cbn [bind] in H; try discriminate. injection H as <-.
    destruct G as (out & Hd & Hr & Hk & ->). exists out. split; [exact Hd|]. split; [reflexivity|]. destruct (rep_size _ _ _ Hr) as [E L]. pose proof (Hl _ Hk) as Hl'. rewrite E in L. cbn [app] in *. lia.
  - pose proof (zlib_sound input _ [] [] Hi (rep_count0 limit)) as G. destruct (decodeZlib input (Counting 0 0 limit)) as [[m o']|e| |]; cbn [bind] in H; try discriminate. injection H as <-.
    destruct G as (out & Hd & Hr & Hk & ->). exists out. split; [exact Hd|]. split; [reflexivity|]. destruct (rep_size _ _ _ Hr) as [E L]. pose proof (Hl _ Hk) as Hl'. rewrite E in L. cbn [app] in *. lia.
  - pose proof (gzip_sound W input _ [] [] Hi (rep_count0 limit)) as G. destruct (decodeGzip W input (Counting 0 0 limit)) as [[m o']|e| |]; cbn [bind] in H; try discriminate. injection H as <-.
    destruct G as (out & Hd & -> & Hk & pre' & out' & Hr & Ep). exists out. split; [exact Hd|]. split; [reflexivity|]. destruct (rep_size _ _ _ Hr) as [E L]. pose proof (Hl _ Hk) as Hl'. rewrite E, Ep in L. cbn [app] in *. lia.
Qed.
Lemma count_complete W input f limit out : octets input -> EncodesUnchecked f input out -> bytesN out <= limit -> limit <= SIZE_MAX -> decompressedSize W input f limit = Ok (bytesN out).
Proof.
  intros Hi He Hl0 Hmx. assert (Hl : bytesN ([] ++ [] ++ out) <= cap (Counting 0 0 limit)) by (cbn [cap app]; lia). unfold decompressedSize. destruct f; cbn [decompressInto EncodesUnchecked] in *.
  - destruct (raw_complete input out _ [] [] Hi He (rep_count0 limit) Hl) as (o' & E & _). rewrite E. reflexivity.
  - destruct (zlib_complete anything input out _ [] [] Hi He (rep_count0 limit) Hl) as [(o' & E & _)|[[] _]]. rewrite E. reflexivity.
  - destruct (gzip_complete anything W input out _ [] [] Hi He (rep_count0 limit) Hl) as [(o' & E & _)|[[] _]]. rewrite E. reflexivity.
Qed.
Lemma rep_all b p hb pre out : rep (Span b p hb) pre out -> firstn (length (pre ++ out)) b = pre ++ out /\ (length (pre ++ out) <= length b)%nat.
Proof. intros (H0 & H1 & H2). split; rewrite <- H2; rewrite firstn_length, Nat.min_l by lia; [reflexivity|exact H1]. Qed.
Lemma span_kind b o' : sameKind (Span b 0 0) o' -> exists b' p hb, o' = Span b' p hb /\ length b' = length b.
Proof. intros [_ H]. destruct o' as [|b' p hb]; [destruct H|]. exists b', p, hb. auto. Qed.
Lemma span_sound W input f buf n b : octets input -> decompressSpan W input buf f = Ok (n, b) ->
  exists out, Encodes f input out /\ n = bytesN out /\ length b = length buf /\ firstn (length out) b = out.
Proof.
  intros Hi. unfold decompressSpan. intros H. destruct f; cbn [decompressInto Encodes] in *.
  - pose proof (raw_sound input _ [] [] Hi (rep_span0 buf)) as G. destruct (decodeRaw input (Span buf 0 0)) as [[m o']|e| |]; cbn [bind] in H; try discriminate.
    destruct G as (out & Hd & Hr & Hk & ->). destruct (span_kind _ _ Hk) as (b' & p & hb & -> & Lb). injection H as <- <-. exists out. split; [exact Hd|]. split; [reflexivity|]. split; [exact Lb|]. apply (rep_all _ _ _ _ _ Hr).
  - pose proof (zlib_sound input _ [] [] Hi (rep_span0 buf)) as G. destruct (decodeZlib input (Span buf 0 0)) as [[m o']|e| |]; cbn [bind] in H; try discriminate.
    destruct G as (out & Hd & Hr & Hk & ->). destruct (span_kind _ _ Hk) as (b' & p & hb & -> & Lb). injection H as <- <-. exists out. split; [exact Hd|]. split; [reflexivity|]. split; [exact Lb|]. apply (rep_all _ _ _ _ _ Hr).
  - pose proof (gzip_sound W input _ [] [] Hi (rep_span0 buf)) as G. destruct (decodeGzip W input (Span buf 0 0)) as [[m o']|e| |]; cbn [bind] in H; try discriminate.
    destruct G as (out & Hd & -> & Hk & pre' & out' & Hr & Ep). destruct (span_kind _ _ Hk) as (b' & p & hb & -> & Lb). injection H as <- <-. exists out. split; [exact Hd|]. split; [reflexivity|]. split; [exact Lb|].
    destruct (rep_all _ _ _ _ _ Hr) as [E _]. rewrite Ep in E. exact E.
Qed.
Lemma bytesN_le (out buf : list N) : (length out <= length buf)%nat -> bytesN ([] ++ [] ++ out) <= cap (Span buf 0 0).
Proof. intros H. cbn [app cap]. unfold bytesN. lia. Qed.
(** Running a parse whose check values may be wrong. *)
Lemma span_run W input f buf out : octets input -> EncodesUnchecked f input out -> (length out <= length buf)%nat ->
  (exists b, decompressSpan W input buf f = Ok (bytesN out, b) /\ length b = length buf /\ firstn (length out) b = out) \/
  decompressSpan W input buf f = Err checksumMismatch.
Proof.
  intros Hi He Hl. apply bytesN_le in Hl. unfold decompressSpan. destruct f; cbn [decompressInto EncodesUnchecked] in *.
  - left. destruct (raw_complete input out _ [] [] Hi He (rep_span0 buf) Hl) as (o' & E & Hr & Hk). rewrite E. cbn [bind].
    destruct (span_kind _ _ Hk) as (b' & p & hb & -> & Lb). exists b'. split; [reflexivity|]. split; [exact Lb|]. apply (rep_all _ _ _ _ _ Hr).
  - destruct (zlib_complete anything input out _ [] [] Hi He (rep_span0 buf) Hl) as [(o' & E & Hr & Hk)|(_ & _ & E)]; rewrite E; cbn [bind]; [|right; reflexivity]. left.
    destruct (span_kind _ _ Hk) as (b' & p & hb & -> & Lb). exists b'. split; [reflexivity|]. split; [exact Lb|]. apply (rep_all _ _ _ _ _ Hr).
  - destruct (gzip_complete anything W input out _ [] [] Hi He (rep_span0 buf) Hl) as [(o' & E & Hk & pre' & out' & Hr & Ep)|(_ & _ & E)]; rewrite E; cbn [bind]; [|right; reflexivity]. left.
    destruct (span_kind _ _ Hk) as (b' & p & hb & -> & Lb). exists b'. split; [reflexivity|]. split; [exact Lb|]. destruct (rep_all _ _ _ _ _ Hr) as [E' _]. rewrite Ep in E'. exact E'.
Qed.
Lemma span_complete W input f buf out : octets input -> Encodes f input out -> (length out <= length buf)%nat ->
  exists b, decompressSpan W input buf f = Ok (bytesN out, b) /\ length b = length buf /\ firstn (length out) b = out.
Proof.
  intros Hi He Hl. destruct (span_run W input f buf out Hi (encodes_weaken _ _ _ He) Hl) as [H|H]; [exact H|]. exfalso. revert H.
  apply bytesN_le in Hl. unfold decompressSpan. destruct f; cbn [decompressInto Encodes] in *.
  - destruct (raw_complete input out _ [] [] Hi He (rep_span0 buf) Hl) as (o' & E & Hr & Hk). rewrite E. cbn [bind]. destruct o'; discriminate.
  - destruct (zlib_complete adlerRight input out _ [] [] Hi He (rep_span0 buf) Hl) as [(o' & E & Hr & Hk)|(_ & Hn & _)]; [rewrite E; cbn [bind]; destruct o'; discriminate|]. exfalso. apply Hn. auto.
  - destruct (gzip_complete crc32Of W input out _ [] [] Hi He (rep_span0 buf) Hl) as [(o' & E & Hr)|(_ & Hn & _)]; [rewrite E; cbn [bind]; destruct o'; discriminate|]. exfalso. apply Hn. auto.
Qed.
Lemma decompress_complete W input f limit out : octets input -> Encodes f input out -> bytesN out <= limit -> limit <= SIZE_MAX -> decompress W input f limit = Ok out.
Proof.
  intros Hi He Hl Hmx. unfold decompress. rewrite (count_complete W input f limit out Hi (encodes_weaken _ _ _ He) Hl Hmx). cbn [bind].
  replace (N.to_nat (bytesN out)) with (length out) by (unfold bytesN; lia).
  destruct (span_complete W input f (repeat 0 (length out)) out Hi He) as (b & E & Lb & Eb); [rewrite repeat_length; lia|]. rewrite repeat_length in Lb.
  rewrite E. cbn [bind]. rewrite <- Lb, firstn_all in Eb. subst b. rewrite N.eqb_refl. reflexivity.
Qed.
Lemma decompress_sound W input f limit out : octets input -> decompress W input f limit = Ok out -> Encodes f input out /\ bytesN out <= limit.
Proof.
  intros Hi. unfold decompress. intros H. destruct (decompressedSize W input f limit) as [n|e| |] eqn:En; cbn [bind] in H; try discriminate.
  destruct (decompressSpan W input (repeat 0 (N.to_nat n)) f) as [[w b]|e| |] eqn:Es; cbn [bind] in H; try discriminate.
  destruct (N.eqb_spec w (bytesN b)) as [Ew|]; cbn [negb] in H; [|discriminate]. injection H as <-.
  destruct (span_sound _ _ _ _ _ _ Hi Es) as (out & He & Hw & Lb & Eb). rewrite repeat_length in Lb.
  destruct (count_sound _ _ _ _ _ Hi En) as (out2 & _ & _ & Hlim).
  assert (Lo : length out = length b) by (unfold bytesN in *; lia). rewrite Lo, firstn_all in Eb. subst b.
  split; [exact He|]. unfold bytesN. lia.
Qed.
Lemma into_total W input f o pre out : octets input -> rep o pre out -> totalRes (decompressInto W input o f).
Proof.
  intros Hi Ho. destruct f; cbn [decompressInto].
  - pose proof (raw_sound input o pre out Hi Ho) as H. destruct (decodeRaw input o) as [[? ?]| | |]; cbn; auto.
  - pose proof (zlib_sound input o pre out Hi Ho) as H. destruct (decodeZlib input o) as [[? ?]| | |]; cbn; auto.
  - pose proof (gzip_sound W input o pre out Hi Ho) as H. destruct (decodeGzip W input o) as [[? ?]| | |]; cbn; auto.
Qed.
Lemma span_total W input f buf : octets input -> totalRes (decompressSpan W input buf f).
Proof.
  intros Hi. unfold decompressSpan. pose proof (into_total W input f _ [] [] Hi (rep_span0 buf)) as H.
  destruct (decompressInto W input (Span buf 0 0) f) as [[m o']|e| |] eqn:E; cbn [bind]; auto. destruct o' as [c hb l|b p hb]; [|exact I]. exfalso.
  assert (Hk : sameKind (Span buf 0 0) (Counting c hb l)); [|destruct Hk as [_ []]]. destruct f; cbn [decompressInto] in E.
  - pose proof (raw_sound input _ [] [] Hi (rep_span0 buf)) as G. rewrite E in G. destruct G as (? & _ & _ & G & _). exact G.
  - pose proof (zlib_sound input _ [] [] Hi (rep_span0 buf)) as G. rewrite E in G. destruct G as (? & _ & _ & G & _). exact G.
  - pose proof (gzip_sound W input _ [] [] Hi (rep_span0 buf)) as G. rewrite E in G. destruct G as (? & _ & _ & G & _). exact G.
Qed.
Lemma count_total W input f limit : octets input -> totalRes (decompressedSize W input f limit).
Proof.
  intros Hi. unfold decompressedSize. pose proof (into_total W input f _ [] [] Hi (rep_count0 limit)) as H.
  destruct (decompressInto W input (Counting 0 0 limit) f) as [[m o']|e| |]; cbn [bind]; auto.
Qed.
Lemma decompress_total W input f limit : octets input -> totalRes (decompress W input f limit).
Proof.
  intros Hi. unfold decompress. pose proof (count_total W input f limit Hi) as H. destruct (decompressedSize W input f limit) as [n|e| |]; cbn [bind]; auto.
  pose proof (span_total W input f (repeat 0 (N.to_nat n)) Hi) as H2. destruct (decompressSpan W input (repeat 0 (N.to_nat n)) f) as [[w b]|e| |]; cbn [bind]; auto.
  destruct (w =? bytesN b); exact I.
Qed.
Lemma encodes_functional f input out1 out2 : octets input -> EncodesUnchecked f input out1 -> Encodes f input out2 -> length out1 = length out2 /\ (Encodes f input out1 -> out1 = out2).
Proof.
  intros Hi H1 H2. set (buf := repeat 0 (length out1 + length out2)).
  assert (Hn : length out1 = length out2).
  { destruct (span_complete 1 input f buf out2 Hi H2) as (b2 & E2 & _); [unfold buf; rewrite repeat_length; lia|].
    destruct (span_run 1 input f buf out1 Hi H1) as [(b1 & E1 & _)|E1]; [unfold buf; rewrite repeat_length; lia| |congruence]. rewrite E1 in E2. injection E2 as E2 _. unfold bytesN in E2. lia. }
  split; [exact Hn|]. intros H1'. destruct (span_complete 1 input f buf out1 Hi H1') as (b1 & E1 & _ & F1); [unfold buf; rewrite repeat_length; lia|].
  destruct (span_complete 1 input f buf out2 Hi H2) as (b2 & E2 & _ & F2); [unfold buf; rewrite repeat_length; lia|]. rewrite E1 in E2. injection E2 as _ <-. rewrite Hn in F1. congruence.
Qed.
Lemma deflate_prefix input n1 n2 out1 out2 : octets input -> (n1 <= length input)%nat -> (n2 <= length input)%nat ->
  Deflate (firstn n1 input) out1 -> Deflate (firstn n2 input) out2 -> n1 = n2 /\ out1 = out2.
Proof.
  intros Hi L1 L2 H1 H2. set (m := Nat.max (length out1) (length out2)).
  destruct (decodeDeflate_complete input n1 out1 (Span (repeat 0 m) 0 0) [] [] Hi L1 H1 (rep_span0 _)) as (o1 & E1 & R1 & K1); [apply bytesN_le; rewrite repeat_length; lia|].
  destruct (decodeDeflate_complete input n2 out2 (Span (repeat 0 m) 0 0) [] [] Hi L2 H2 (rep_span0 _)) as (o2 & E2 & R2 & K2); [apply bytesN_le; rewrite repeat_length; lia|].
  rewrite E1 in E2. injection E2 as <- <-. split; [reflexivity|]. destruct (span_kind _ _ K1) as (b & p & hb & -> & _).
  destruct R1 as (_ & _ & R1), R2 as (_ & _ & R2). cbn [app] in *. congruence.
Qed.
(** After a successful count the decoding of the same input into a buffer of that size can only fail on a check value. *)
Lemma count_then_span W input f limit n buf : octets input -> decompressedSize W input f limit = Ok n -> n <= bytesN buf ->
  (exists b, decompressSpan W input buf f = Ok (n, b) /\ length b = length buf /\ Encodes f input (firstn (N.to_nat n) b)) \/
  (decompressSpan W input buf f = Err checksumMismatch /\ forall out, ~ Encodes f input out).
Proof.
  intros Hi H Hl. destruct (count_sound _ _ _ _ _ Hi H) as (out & He & -> & _). unfold bytesN in Hl.
  destruct (span_run W input f buf out Hi He ltac:(lia)) as [(b & E & Lb & Eb)|E].
  - left. exists b. split; [exact E|]. split; [exact Lb|]. destruct (span_sound _ _ _ _ _ _ Hi E) as (out2 & He2 & Hn & _ & Eb2).
    replace (N.to_nat (bytesN out)) with (length out2) by (unfold bytesN in *; lia). rewrite Eb2. exact He2.
  - right. split; [exact E|]. intros out2 He2. destruct (encodes_functional f input out out2 Hi He He2) as [Eo _].
    destruct (span_complete W input f buf out2 Hi He2 ltac:(lia)) as (b & E' & _). congruence.
Qed.
