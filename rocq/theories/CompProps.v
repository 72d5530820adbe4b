(** * Properties of the DEFLATE, zlib and gzip codec. *)
From Coq Require Import List NArith Bool Lia Arith.
From Coq Require Import ZifyBool ZifyNat ZifyN.
From Verif Require Import Base CompModel CompSpec CompBits CompDec CompBlk CompWrap CompTop CompTok CompLens CompCode CompEnc CompOut.
Import ListNotations.
Local Open Scope N_scope.

(** Concrete streams, made by another implementation: 150 bytes as one dynamic block, raw and in zlib;
    two gzip members, the first with every optional header field and a fixed block, the second a stored block. *)
Definition plain : list N := [97; 104; 103; 106; 100; 97; 98; 101; 107; 106; 107; 100; 97; 107; 98; 104; 101; 101; 105; 100; 98; 100; 104; 100; 100; 102; 107; 105; 105; 97; 104; 102; 103; 97; 104; 103; 106; 100; 97; 98; 101; 107; 106; 107; 100; 97; 107; 98; 104; 101; 101; 105; 100; 98; 100; 104; 100; 100; 102; 107; 105; 105; 97; 104; 102; 103; 97; 104; 103; 106; 100; 97; 98; 101; 107; 106; 107; 100; 97; 107; 98; 104; 101; 101; 105; 100; 98; 100; 104; 100; 100; 102; 107; 105; 105; 97; 104; 102; 103; 97; 104; 103; 106; 100; 97; 98; 101; 107; 106; 107; 100; 97; 107; 98; 104; 101; 101; 105; 100; 98; 100; 104; 100; 100; 102; 107; 105; 105; 97; 104; 102; 103; 97; 104; 103; 106; 100; 97; 98; 101; 107; 106; 107; 100; 97; 107; 98; 104; 101; 101].
Definition rawStream : list N := [197; 202; 193; 17; 0; 48; 8; 2; 176; 89; 241; 80; 65; 246; 255; 119; 140; 230; 29; 104; 143; 168; 206; 133; 72; 169; 219; 44; 138; 156; 216; 208; 44; 126; 132; 7].
Definition zlibStream : list N := [120; 218; 197; 202; 193; 17; 0; 48; 8; 2; 176; 89; 241; 80; 65; 246; 255; 119; 140; 230; 29; 104; 143; 168; 206; 133; 72; 169; 219; 44; 138; 156; 216; 208; 44; 126; 132; 7; 160; 93; 59; 195].
Definition gzipStream : list N := [31; 139; 8; 30; 1; 2; 3; 4; 2; 255; 3; 0; 1; 0; 2; 110; 46; 116; 120; 116; 0; 104; 105; 0; 54; 33; 75; 76; 74; 78; 132; 33; 0; 52; 42; 110; 90; 12; 0; 0; 0; 31; 139; 8; 0; 1; 2; 3; 4; 2; 255; 1; 3; 0; 252; 255; 120; 121; 122; 103; 186; 142; 235; 3; 0; 0; 0].
Definition gzipPlain : list N := [97; 98; 99; 97; 98; 99; 97; 98; 99; 97; 98; 99; 120; 121; 122].
Definition octetsb (l : list N) : bool := forallb (fun x => x <? 256) l.
Lemma octetsb_ok l : octetsb l = true -> octets l.
Proof. intros H. apply Forall_forall. intros x Hx. apply (proj1 (forallb_forall _ _) H) in Hx. lia. Qed.

(* ------------------------------------------------------------------ C63 *)

(** C63.  Decompression succeeds exactly on the well-formed streams whose content fits, and gives that content. *)
Theorem C63_decompress_iff :
  forall W input f limit out, octets input -> limit <= SIZE_MAX ->
    (decompress W input f limit = Ok out <-> Encodes f input out /\ bytesN out <= limit).
Proof.
  intros W input f limit out Hi Hm. split; [apply decompress_sound, Hi|]. intros [He Hl]. apply decompress_complete; assumption.
Qed.
Print Assumptions C63_decompress_iff.

(** The same for decoding into the caller's span: its first bytes become the content. *)
Theorem C63_decompress_span_iff :
  forall W input f buffer n, octets input ->
    ((exists after, decompressSpan W input buffer f = Ok (n, after)) <->
     (exists out, Encodes f input out /\ n = bytesN out /\ n <= bytesN buffer)) /\
    (forall after, decompressSpan W input buffer f = Ok (n, after) ->
       length after = length buffer /\ Encodes f input (firstn (N.to_nat n) after)).
Proof.
  intros W input f buffer n Hi. split; [split|].
  - intros [b H]. destruct (span_sound _ _ _ _ _ _ Hi H) as (out & He & Hn & Lb & Eb). exists out. split; [exact He|]. split; [exact Hn|].
    apply (f_equal (@length N)) in Eb. rewrite firstn_length in Eb. unfold bytesN in *. lia.
  - intros (out & He & -> & Hn). unfold bytesN in Hn. destruct (span_complete W input f buffer out Hi He ltac:(lia)) as (b & E & _). exists b. exact E.
  - intros b H. destruct (span_sound _ _ _ _ _ _ Hi H) as (out & He & Hn & Lb & Eb). split; [exact Lb|].
    replace (N.to_nat n) with (length out) by (unfold bytesN in *; lia). rewrite Eb. exact He.
Qed.
Print Assumptions C63_decompress_span_iff.

Example C63_case_raw : octets rawStream /\ decompress 1 rawStream rawDeflate 150 = Ok plain /\ Encodes rawDeflate rawStream plain.
Proof.
  assert (H : octets rawStream) by (apply octetsb_ok; vm_compute; reflexivity).
  assert (E : decompress 1 rawStream rawDeflate 150 = Ok plain) by (vm_compute; reflexivity).
  split; [exact H|]. split; [exact E|]. apply (C63_decompress_iff 1 rawStream rawDeflate 150 plain H ltac:(discriminate)), E.
Qed.
Example C63_case_zlib : decompress 1 zlibStream zlib 150 = Ok plain /\ decompress 1 zlibStream zlib 149 = Err sizeLimitExceeded.
Proof. vm_compute. auto. Qed.
Example C63_case_gzip : decompress 1 gzipStream gzip 1000 = Ok gzipPlain.
Proof. vm_compute. reflexivity. Qed.
Example C63_case_span : exists after, decompressSpan 1 gzipStream (repeat 7 16) gzip = Ok (15, after) /\ after = gzipPlain ++ [7].
Proof. exists (gzipPlain ++ [7]). vm_compute. auto. Qed.

(* ------------------------------------------------------------------ C64 *)

(** C64.  On any bytes at all decoding terminates with a value or an error code: no read outside the input,
    no write outside the output and no table access out of range (each is [Fault] in the model, running out of fuel is [Hang]). *)
Theorem C64_hostile_input :
  forall W input f, octets input ->
    (forall limit, (exists out, decompress W input f limit = Ok out) \/ exists e, decompress W input f limit = Err e) /\
    (forall limit, (exists n, decompressedSize W input f limit = Ok n) \/ exists e, decompressedSize W input f limit = Err e) /\
    (forall buffer, (exists n after, decompressSpan W input buffer f = Ok (n, after) /\ length after = length buffer) \/ exists e, decompressSpan W input buffer f = Err e).
Proof.
  intros W input f Hi. repeat split.
  - intros limit. pose proof (decompress_total W input f limit Hi) as H. destruct (decompress W input f limit) as [x|e| |]; try destruct H; eauto.
  - intros limit. pose proof (count_total W input f limit Hi) as H. destruct (decompressedSize W input f limit) as [x|e| |]; try destruct H; eauto.
  - intros buffer. pose proof (span_total W input f buffer Hi) as H. destruct (decompressSpan W input buffer f) as [[n b]|e| |] eqn:E; try destruct H; eauto.
    left. exists n, b. split; [reflexivity|]. destruct (span_sound _ _ _ _ _ _ Hi E) as (out & _ & _ & L & _). exact L.
Qed.
Print Assumptions C64_hostile_input.

Example C64_case : octets [255; 255; 255] /\ decompress 1 [255; 255; 255] rawDeflate 10 = Err invalidBlockType
  /\ decompress 1 (firstn 20 rawStream) rawDeflate 1000 = Err truncatedInput.
Proof. split; [apply octetsb_ok; reflexivity|vm_compute; auto]. Qed.

(* ------------------------------------------------------------------ C65 *)

(** C65.  The size query gives the size of the content whatever the check values; afterwards decoding into a span of that size
    fails in one case only, a wrong check value, and then the stream has no content. *)
Theorem C65_size_query :
  forall W input f limit n, octets input -> limit <= SIZE_MAX ->
    (decompressedSize W input f limit = Ok n <-> exists out, EncodesUnchecked f input out /\ n = bytesN out /\ n <= limit).
Proof.
  intros W input f limit n Hi Hm. split; [apply count_sound, Hi|]. intros (out & He & -> & Hl). apply count_complete; assumption.
Qed.
Print Assumptions C65_size_query.

Theorem C65_size_then_decode :
  forall W input f limit n buffer, octets input -> decompressedSize W input f limit = Ok n -> n <= bytesN buffer ->
    (exists after, decompressSpan W input buffer f = Ok (n, after) /\ length after = length buffer /\ Encodes f input (firstn (N.to_nat n) after)) \/
    (decompressSpan W input buffer f = Err checksumMismatch /\ forall out, ~ Encodes f input out).
Proof. intros W input f limit n buffer Hi H Hl. eapply count_then_span; eassumption. Qed.
Print Assumptions C65_size_then_decode.

Example C65_case : decompressedSize 1 zlibStream zlib 1000 = Ok 150 /\ 150 <= bytesN (repeat 0 150).
Proof. vm_compute. split; [reflexivity|discriminate]. Qed.

(** "Returns the exact decoded size after validating the stream" (CP:1954): the check values are not validated. *)
Definition badZlib : list N := firstn 41 zlibStream ++ [0].
Theorem C65_size_validates_refuted :
  exists input n, octets input /\ decompressedSize 1 input zlib SIZE_MAX = Ok n /\ (forall out, ~ Encodes zlib input out) /\
    forall limit, decompress 1 input zlib limit <> Ok (repeat 0 (N.to_nat n)).
Proof.
  assert (Hi : octets badZlib) by (apply octetsb_ok; vm_compute; reflexivity).
  assert (E : decompressedSize 1 badZlib zlib SIZE_MAX = Ok 150) by (vm_compute; reflexivity).
  assert (E2 : decompressSpan 1 badZlib (repeat 0 150) zlib = Err checksumMismatch) by (vm_compute; reflexivity).
  assert (Hno : forall out, ~ Encodes zlib badZlib out).
  { destruct (count_then_span 1 badZlib zlib SIZE_MAX 150 (repeat 0 150) Hi E) as [(b & E' & _)|[_ H]]; [vm_compute; discriminate|congruence|exact H]. }
  exists badZlib, 150. split; [exact Hi|]. split; [exact E|]. split; [exact Hno|]. intros limit H. apply decompress_sound in H; [|exact Hi]. apply (Hno _ (proj1 H)).
Qed.
Print Assumptions C65_size_validates_refuted.

(* ------------------------------------------------------------------ C66 *)

(** C66.  The formats are unambiguous: a stream has at most one content, and of a DEFLATE stream followed by other bytes the end is determined. *)
Theorem C66_unambiguous :
  forall f input out1 out2, octets input -> Encodes f input out1 -> Encodes f input out2 -> out1 = out2.
Proof.
  intros f input out1 out2 Hi H1 H2. apply (encodes_functional f input out1 out2 Hi (encodes_weaken _ _ _ H1) H2), H1.
Qed.
Print Assumptions C66_unambiguous.

Theorem C66_deflate_end :
  forall input n1 n2 out1 out2, octets input -> (n1 <= length input)%nat -> (n2 <= length input)%nat ->
    Deflate (firstn n1 input) out1 -> Deflate (firstn n2 input) out2 -> n1 = n2 /\ out1 = out2.
Proof. intros. eapply deflate_prefix; eassumption. Qed.
Print Assumptions C66_deflate_end.

Example C66_case : Deflate (firstn 36 (rawStream ++ [1; 2; 3])) plain.
Proof. exact (proj2 (proj2 C63_case_raw)). Qed.

(* ------------------------------------------------------------------ C67 *)

(** C67.  Adler-32 with the modulus taken once every 5552 bytes equals the definition at every length: the 32-bit sums never wrap. *)
Theorem C67_adler32 : forall input, octets input -> adler32 input = adlerSpec input.
Proof. apply adler32_spec. Qed.
Print Assumptions C67_adler32.

Theorem C67_adler32_in_pieces :
  forall a b fuel1 fuel2, octets a -> octets b -> (length a <= fuel1)%nat -> (length b <= fuel2)%nat ->
    let s := updateAdler fuel1 1 0 a in let t := updateAdler fuel2 (fst s) (snd s) b in
    N.lor (tr 32 (N.shiftl (snd t) 16)) (fst t) = adlerSpec (a ++ b).
Proof.
  intros a b f1 f2 Ha Hb H1 H2. cbn zeta. rewrite (updateAdler_spec f1) by (try assumption; lia). fold (adlerSums a). destruct (adlerSums_lt a) as [L1 L2].
  rewrite (updateAdler_spec f2) by assumption.
  rewrite <- adler32_spec by (apply octets_app; auto). unfold adler32. rewrite (updateAdler_spec (length (a ++ b))) by (try lia; apply octets_app; auto).
  rewrite fold_left_app. fold (adlerSums a). destruct (adlerSums a). reflexivity.
Qed.
Print Assumptions C67_adler32_in_pieces.

(** The longest run that does not wrap is the one used: 5552 bytes of 255 after the largest sums. *)
Example C67_case : adler32 (repeat 255 40) = adlerSpec (repeat 255 40) /\ adlerSpec (repeat 255 40) = 824256473.
Proof. vm_compute. auto. Qed.

(* ------------------------------------------------------------------ C68 *)

(** C68.  Compressing never fails, and decompressing gives the bytes back: every input below 4 GiB, format, level and CRC engine width.
    The size condition is the 32-bit symbol counters of CP:628, which wrap when one symbol occurs 2^32 times. *)
Theorem C68_round_trip :
  forall W W' data f level limit, octets data -> bytesN data + 1 < 2 ^ 32 -> bytesN data <= limit -> limit <= SIZE_MAX ->
    exists packed, compress W data f level = Ok packed /\ octets packed /\ decompress W' packed f limit = Ok data.
Proof.
  intros W W' data f level limit Ho Hs Hl Hm. destruct (compress_spec W data f level Ho Hs) as (packed & E & O & En & _). exists packed.
  split; [exact E|]. split; [exact O|]. apply decompress_complete; assumption.
Qed.
Print Assumptions C68_round_trip.

(** The size query and decoding into a span of that size agree with it. *)
Theorem C68_round_trip_span :
  forall W W' data f level packed, octets data -> bytesN data + 1 < 2 ^ 32 -> compress W data f level = Ok packed ->
    decompressedSize W' packed f SIZE_MAX = Ok (bytesN data) /\
    forall buffer, bytesN data <= bytesN buffer -> exists after, decompressSpan W' packed buffer f = Ok (bytesN data, after) /\ firstn (length data) after = data.
Proof.
  intros W W' data f level packed Ho Hs E. destruct (compress_spec W data f level Ho Hs) as (p & E' & O & En & _). rewrite E in E'. inversion E'; subst p. split.
  - apply count_complete; [exact O|apply encodes_weaken, En| |apply N.le_refl]. unfold SIZE_MAX. change (2 ^ 32) with 4294967296 in Hs. change (2 ^ 64) with 18446744073709551616. lia.
  - intros buffer Hb. unfold bytesN in Hb. destruct (span_complete W' packed f buffer data O En ltac:(lia)) as (b & Eb & L & F). exists b. split; [exact Eb|exact F].
Qed.
Print Assumptions C68_round_trip_span.

Definition text : list N := gzipPlain ++ gzipPlain ++ [1; 2; 3].
Example C68_case : octets text /\ bytesN text = 33 /\
  match compress 1 text gzip best with Ok p => bytesN p = 32 /\ decompress 1 p gzip 33 = Ok text | _ => False end.
Proof. split; [apply octetsb_ok; vm_compute; reflexivity|]. vm_compute. auto. Qed.
(** Each of the three block kinds is chosen somewhere. *)
Example C68_case_stored : compress 1 [150; 151; 152; 153; 154; 155; 156; 157; 158; 159; 200; 201; 202; 203; 204; 205; 206; 207; 208; 209; 210; 211; 212; 213; 214; 215; 216; 217; 218; 219; 220; 221; 222; 223; 224; 225] rawDeflate fast
  = Ok ([1; 36; 0; 219; 255] ++ [150; 151; 152; 153; 154; 155; 156; 157; 158; 159; 200; 201; 202; 203; 204; 205; 206; 207; 208; 209; 210; 211; 212; 213; 214; 215; 216; 217; 218; 219; 220; 221; 222; 223; 224; 225]).
Proof. vm_compute. reflexivity. Qed.
Example C68_case_fixed : match compress 1 (repeat 65 30) zlib balanced with Ok p => nth 2 p 0 mod 8 = 3 | _ => False end.
Proof. vm_compute. reflexivity. Qed.
Example C68_case_dynamic : match compress 1 (concat (repeat plain 2)) rawDeflate best with Ok p => nth 0 p 0 mod 8 = 5 /\ decompress 1 p rawDeflate 300 = Ok (concat (repeat plain 2)) | _ => False end.
Proof. vm_compute. auto. Qed.

(* ------------------------------------------------------------------ C69 *)

(** C69.  compressBound: the output never exceeds it, and it is the size of the data plus five bytes for every started 65535 bytes
    (one block at least) plus the container's frame. *)
Theorem C69_bound :
  forall W data f level packed, octets data -> bytesN data + 1 < 2 ^ 32 -> compress W data f level = Ok packed ->
    bytesN packed <= compressBound (bytesN data) f /\
    compressBound (bytesN data) f = bytesN data + 5 * N.max 1 ((bytesN data + 65534) / 65535) + match f with rawDeflate => 0 | zlib => 6 | gzip => 18 end.
Proof.
  intros W data f level packed Ho Hs E. destruct (compress_spec W data f level Ho Hs) as (p & E' & _ & _ & B). rewrite E in E'. inversion E'; subst p. split; [exact B|].
  rewrite bound_eq. unfold storedBlockCount, kMaxStoredBlock, overhead. destruct (N.eqb_spec (bytesN data) 0) as [H|H].
  - rewrite H. change ((0 + 65534) / 65535) with 0. destruct f; lia.
  - replace (bytesN data + 65535 - 1) with (bytesN data + 65534) by lia. assert (1 <= (bytesN data + 65534) / 65535) by (apply N.div_le_lower_bound; lia). destruct f; lia.
Qed.
Print Assumptions C69_bound.

(** The payload is the smallest of the three block kinds for the tokens found: no other choice gives fewer bytes. *)
Theorem C69_smallest_choice :
  forall W data f level packed, octets data -> bytesN data + 1 < 2 ^ 32 -> compress W data f level = Ok packed ->
    let tokens := fst (tokenize level data 0 0 0 (historyBound (bytesN data)) emptyChains) in
    forall e, bytesN packed <= bytesN (wout (exec {| wout := []; wbits := 0; wcount := 0 |} (emitWrapped W data tokens (makeDynamicCoding tokens) e f level))).
Proof.
  intros W data f level packed Ho Hs E. cbn zeta. intros e. pose proof (tokens_ok level data Ho Hs) as Ht. unfold compress, compressOps in E.
  set (ts := fst (tokenize level data 0 0 0 (historyBound (bytesN data)) emptyChains)) in *. fold empty in *.
  destruct (wrapped_encodes W data ts (selectEncoding (bytesN data) ts (makeDynamicCoding ts) true) f level Ho Ht) as (_ & _ & S1).
  destruct (wrapped_encodes W data ts e f level Ho Ht) as (_ & _ & S2). cbn zeta in *.
  pose proof (select_smallest data ts Ho Ht e) as Hm. cbn zeta in Hm. rewrite S2.
  destruct (compressBound (bytesN data) f <? _); [discriminate|]. injection E as <-. rewrite S1. lia.
Qed.
Print Assumptions C69_smallest_choice.

Example C69_case : match compress 1 [200; 1; 99] gzip fast with Ok p => bytesN p = 23 /\ compressBound 3 gzip = 26 | _ => False end.
Proof. vm_compute. auto. Qed.

(* ------------------------------------------------------------------ C70 *)

(** C70.  What compress writes is a well-formed stream of the published format, checksum and size included, so any conforming decoder reads it. *)
Theorem C70_output_conforms :
  forall W data f level packed, octets data -> bytesN data + 1 < 2 ^ 32 -> compress W data f level = Ok packed ->
    match f with rawDeflate => Deflate packed data | zlib => Zlib adlerRight packed data | gzip => Gzip crc32Of packed data end.
Proof.
  intros W data f level packed Ho Hs E. destruct (compress_spec W data f level Ho Hs) as (p & E' & _ & En & _). rewrite E in E'. inversion E'; subst p. destruct f; exact En.
Qed.
Print Assumptions C70_output_conforms.

(** The code made for a block is complete and gives a code to every symbol that occurs, at most [M] bits long. *)
Theorem C70_code_lengths :
  forall M freqs, (1 <= M)%nat -> (2 <= length freqs)%nat -> N.of_nat (length freqs) <= 2 ^ N.of_nat M ->
    let ls := makeCodeLengths M freqs in
    length ls = length freqs /\ complete M ls /\ (forall s, nth s freqs 0 <> 0 -> hasCode ls s).
Proof. exact makeCodeLengths_spec. Qed.
Print Assumptions C70_code_lengths.

(** Different compressors may differ, their contents may not: equal output means equal input. *)
Theorem C70_injective :
  forall W data1 data2 f l1 l2 packed, octets data1 -> octets data2 -> bytesN data1 + 1 < 2 ^ 32 -> bytesN data2 + 1 < 2 ^ 32 ->
    compress W data1 f l1 = Ok packed -> compress W data2 f l2 = Ok packed -> data1 = data2.
Proof.
  intros W d1 d2 f l1 l2 packed O1 O2 S1 S2 E1 E2. destruct (compress_spec W d1 f l1 O1 S1) as (p & E' & Op & En1 & _). rewrite E1 in E'. inversion E'; subst p.
  destruct (compress_spec W d2 f l2 O2 S2) as (p & E'' & _ & En2 & _). rewrite E2 in E''. inversion E''; subst p.
  apply (encodes_functional f packed d1 d2 Op); [apply encodes_weaken, En1|exact En2|exact En1].
Qed.
Print Assumptions C70_injective.

(** A depth limit that binds: Fibonacci frequencies need 9 levels, 7 are allowed. *)
Example C70_case : makeCodeLengths 7 [1; 1; 2; 3; 5; 8; 13; 21; 34; 55] = [7; 7; 7; 7; 6; 6; 4; 3; 2; 1]%nat.
Proof. vm_compute. reflexivity. Qed.
