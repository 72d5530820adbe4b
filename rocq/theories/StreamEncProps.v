(** * Properties of the streaming compressor. *)
From Coq Require Import List NArith Arith Bool Lia ZifyBool ZifyNat ZifyN.
From Verif Require Import Base CompModel CompSpec CompBits CompDec CompBlk CompWrap CompTop CompOut CompProps StreamModel StreamProps StreamEncModel StreamEnc.
Import ListNotations.
Local Open Scope N_scope.

(** ** Use of the object
    [inp] is everything that will be compressed.  [csession f level bb inp t out c]: some calls on a compressor made for (or reset to) format [f],
    level [level] and block size [bb] have consumed [t] bytes of [inp] and produced [out].  Each call offers any number of the bytes not yet
    consumed, any room, and asks to finish only if nothing more will come. *)
Inductive csession (f : Format) (level : Level) (bb : N) (inp : list N) : nat -> list N -> Cmp -> Prop :=
| cs_start : csession f level bb inp 0 [] (cmpReset f level bb)
| cs_call t out c n room fin c' s : csession f level bb inp t out c -> (fin = true -> (length inp <= t + n)%nat) ->
    compressStep c (firstn n (skipn t inp)) room fin = (c', Ok s) ->
    csession f level bb inp (t + consumed s) (out ++ produced s) c'.
(** The last call of the session said done; [packed] is all that was produced. *)
Definition packs (f : Format) (level : Level) (bb : N) (inp packed : list N) : Prop :=
  exists t out c n room fin c' s, csession f level bb inp t out c /\ (fin = true -> (length inp <= t + n)%nat) /\
    compressStep c (firstn n (skipn t inp)) room fin = (c', Ok s) /\ status s = done /\ packed = out ++ produced s.
(** The size of a block: what was asked for, between 1 and 65535. *)
Definition blockOf (bb : N) : nat := N.to_nat (N.min (N.max bb 1) 65535).
Lemma block_ok bb : (1 <= blockOf bb)%nat /\ N.of_nat (blockOf bb) <= 65535.
Proof. unfold blockOf. lia. Qed.

Section Facts.
Variables (f : Format) (level : Level) (bb : N) (inp : list N).
Hypothesis Hinp : octets inp.
Lemma csession_ready t out c : csession f level bb inp t out c -> cready inp f level (blockOf bb) t out c.
Proof.
  induction 1 as [|t out c n room fin c' s _ IH Hf E]; [right; split; [reflexivity|split; [reflexivity|exists bb; split; reflexivity]]|].
  destruct (comp_ok inp f level (blockOf bb) Hinp (block_ok bb) t n out room fin c IH Hf) as (c2 & s2 & E2 & R & _). rewrite E in E2. injection E2 as -> ->. left. exact R.
Qed.
Lemma csession_call t out c n room fin : csession f level bb inp t out c -> (fin = true -> (length inp <= t + n)%nat) ->
  compOk inp f level (blockOf bb) t n out room fin (compressStep c (firstn n (skipn t inp)) room fin).
Proof. intros H Hf. apply comp_ok; [exact Hinp|apply block_ok|apply csession_ready, H|exact Hf]. Qed.
Lemma packs_whole packed : packs f level bb inp packed -> exists j, whole inp f level (blockOf bb) j packed.
Proof.
  intros (t & out & c & n & room & fin & c' & s & Hs & Hf & E & Es & ->). destruct (csession_call t out c n room fin Hs Hf) as (c2 & s2 & E2 & _ & _ & _ & _ & H & _).
  rewrite E in E2. injection E2 as -> ->. apply (H Es).
Qed.
End Facts.

(* ------------------------------------------------------------------ C77 *)

(** C77.  Whatever the pieces and the room of each call: once the status is done, what was produced is a stream of the format with exactly the
    input as its content.  There is no limit on the size of the input. *)
Theorem C77_stream_encodes : forall f level bb inp packed, octets inp -> packs f level bb inp packed -> octets packed /\ Encodes f packed inp.
Proof.
  intros f level bb inp packed Hi Hp. destruct (packs_whole f level bb inp Hi packed Hp) as (j & Hw). eapply whole_encodes; [exact Hi|apply block_ok|exact Hw].
Qed.
Print Assumptions C77_stream_encodes.
(** So both decompressors give the input back: the one for whole buffers, and the streaming one however its input is cut up. *)
Theorem C77_round_trip : forall f level bb inp packed, octets inp -> packs f level bb inp packed ->
  (forall W limit, bytesN inp <= limit -> limit <= SIZE_MAX -> decompress W packed f limit = Ok inp) /\
  (forall limit data, completes f limit packed data -> data = inp).
Proof.
  intros f level bb inp packed Hi Hp. destruct (C77_stream_encodes f level bb inp packed Hi Hp) as [Ho He]. split.
  - intros W limit H1 H2. apply C63_decompress_iff; auto.
  - intros limit data Hc. destruct (C71_stream_sound f limit packed data Ho Hc) as [He' _]. eapply C66_unambiguous; eassumption.
Qed.
Print Assumptions C77_round_trip.

(** A session given by the sizes of its calls, finishing as soon as a piece reaches the end of [inp]; used for concrete cases. *)
Fixpoint crun (inp : list N) (calls : list (nat * nat)) (t : nat) (out : list N) (c : Cmp) : option (nat * list N * Cmp) :=
  match calls with
  | [] => Some (t, out, c)
  | (n, room) :: r =>
      match compressStep c (firstn n (skipn t inp)) room (length inp <=? t + n)%nat with
      | (c', Ok s) => crun inp r (t + consumed s) (out ++ produced s) c'
      | _ => None
      end
  end.
Lemma crun_session f level bb inp : forall calls t out c t' out' c', csession f level bb inp t out c -> crun inp calls t out c = Some (t', out', c') -> csession f level bb inp t' out' c'.
Proof.
  induction calls as [|[n room] r IH]; intros t out c t' out' c' Hs E; cbn [crun] in E; [congruence|].
  destruct (compressStep c (firstn n (skipn t inp)) room (length inp <=? t + n)%nat) as [c1 [s|e| |]] eqn:Ep; try discriminate.
  eapply IH; [|exact E]. eapply cs_call; [exact Hs| |exact Ep]. intros Hl. lia.
Qed.
Definition cshown (x : option (nat * list N * Cmp)) : option (nat * list N * bool) := match x with Some (t, out, c) => Some (t, out, cfinished c) | None => None end.
Lemma packs_run f level bb inp calls packed : cshown (crun inp calls 0 [] (cmpReset f level bb)) = Some (length inp, packed, true) -> packs f level bb inp packed.
Proof.
  intros E. destruct (crun inp calls 0 [] (cmpReset f level bb)) as [[[t out] c]|] eqn:Er; [|discriminate]. cbn [cshown] in E.
  assert (t = length inp) by congruence. assert (out = packed) by congruence. assert (Ef : cfinished c = true) by congruence. subst t out. clear E.
  assert (Hs : csession f level bb inp (length inp) packed c) by (eapply crun_session; [apply cs_start|exact Er]). clear Er.
  exists (length inp), packed, c, 0%nat, 0%nat, true, c, {| consumed := 0; produced := []; status := done |}. split; [exact Hs|]. split; [intros _; lia|].
  split; [unfold compressStep; rewrite Ef; cbn [firstn]; reflexivity|]. split; [reflexivity|]. cbn [produced]. rewrite app_nil_r. reflexivity.
Qed.
(** Thirty bytes in pieces of seven, blocks of eight, four bytes of room per call. *)
Definition text : list N := [97; 98; 97; 98; 97; 98; 97; 98; 97; 98; 99; 100; 101; 99; 100; 101; 99; 100; 101; 99; 0; 0; 0; 0; 0; 0; 0; 255; 1; 2].
Definition packedText : list N := match crun text (repeat (7, 4)%nat 40) 0 [] (cmpReset gzip balanced 8) with Some (_, out, _) => out | None => [] end.
Example C77_case : packs gzip balanced 8 text packedText /\ octets text /\ decompress 1 packedText gzip 100 = Ok text.
Proof.
  split; [apply (packs_run _ _ _ _ (repeat (7, 4)%nat 40)); vm_compute; reflexivity|]. split; [apply octetsb_ok; vm_compute; reflexivity|vm_compute; reflexivity].
Qed.

(* ------------------------------------------------------------------ C78 *)

(** C78.  No call of a session fails, reads or writes out of bounds or fails to return; it consumes no more than it was offered, writes no more
    than there is room for, and done means that the whole input has been consumed. *)
Theorem C78_calls_succeed :
  forall f level bb inp t out c n room fin, octets inp -> csession f level bb inp t out c -> (fin = true -> (length inp <= t + n)%nat) ->
    exists c' s, compressStep c (firstn n (skipn t inp)) room fin = (c', Ok s) /\
      (consumed s <= length (firstn n (skipn t inp)))%nat /\ (t + consumed s <= length inp)%nat /\ (length (produced s) <= room)%nat /\
      (status s = done <-> cfinished c' = true) /\ (status s = done -> (t + consumed s)%nat = length inp).
Proof.
  intros f level bb inp t out c n room fin Hi Hs Hf. destruct (csession_call f level bb inp Hi t out c n room fin Hs Hf) as (c' & s & E & R & H1 & H2 & H3 & H4 & _).
  exists c', s. split; [exact E|]. split; [exact H1|]. split; [apply R|]. split; [exact H2|]. split; [exact H3|]. intros H. apply (H4 H).
Qed.
Print Assumptions C78_calls_succeed.
(** The bytes produced, at any point of any session, are bounded by the input: at most 6 more per block, and the container. *)
Theorem C78_size_bound :
  forall f level bb inp t out c, octets inp -> csession f level bb inp t out c ->
    (length out <= length inp + 6 * (length inp / blockOf bb + 1) + match f with rawDeflate => 0 | zlib => 6 | gzip => 18 end)%nat.
Proof.
  intros f level bb inp t out c Hi Hs. destruct (csession_ready f level bb inp Hi t out c Hs) as [R|(_ & -> & _)]; [|apply Nat.le_0_l].
  apply (running_bound inp f level (blockOf bb) Hi (block_ok bb) t out c R).
Qed.
Print Assumptions C78_size_bound.
Example C78_case : exists c, csession gzip balanced 8 text 8 (firstn 14 packedText) c /\ (length packedText <= 30 + 6 * (30 / 8 + 1) + 18)%nat.
Proof.
  destruct (crun text (repeat (7, 4)%nat 4) 0 [] (cmpReset gzip balanced 8)) as [[[t out] c]|] eqn:E; [|vm_compute in E; discriminate].
  assert (Ec : cshown (crun text (repeat (7, 4)%nat 4) 0 [] (cmpReset gzip balanced 8)) = Some (8%nat, firstn 14 packedText, false)) by (vm_compute; reflexivity).
  rewrite E in Ec. cbn [cshown] in Ec. assert (t = 8%nat) by congruence. assert (out = firstn 14 packedText) by congruence. clear Ec. subst t out. exists c.
  split; [eapply crun_session; [apply cs_start|exact E]|]. apply Nat.leb_le. vm_compute. reflexivity.
Qed.

(* ------------------------------------------------------------------ C79 *)

(** C79.  Unless the input is a positive whole number of blocks, the bytes do not depend on how the input and the output were cut up. *)
Lemma whole_count inp f level B j q : (1 <= B)%nat -> whole inp f level B j q -> (length inp = 0)%nat \/ (length inp mod B <> 0)%nat -> j = (length inp / B)%nat.
Proof.
  intros HB (e & q1 & e' & q2 & _ & H1 & H2 & _ & _) Hm. pose proof (Nat.div_mod (length inp) B ltac:(lia)) as D. pose proof (Nat.mod_upper_bound (length inp) B ltac:(lia)) as U. destruct Hm as [Hm|Hm].
  - rewrite Hm in *. rewrite Nat.div_0_l by lia. destruct j; [reflexivity|nia].
  - set (d := (length inp / B)%nat) in *. set (m := (length inp mod B)%nat) in *. assert (j <= d)%nat by nia. assert (d <= j)%nat by nia. lia.
Qed.
Theorem C79_cut_does_not_matter :
  forall f level bb inp packed packed', octets inp -> (length inp = 0)%nat \/ (length inp mod blockOf bb <> 0)%nat ->
    packs f level bb inp packed -> packs f level bb inp packed' -> packed = packed'.
Proof.
  intros f level bb inp p p' Hi Hm Hp Hp'. destruct (packs_whole f level bb inp Hi p Hp) as (j & Hw). destruct (packs_whole f level bb inp Hi p' Hp') as (j' & Hw'). pose proof (block_ok bb) as [Hb _].
  rewrite (whole_count _ _ _ _ _ _ Hb Hw Hm) in Hw. rewrite (whole_count _ _ _ _ _ _ Hb Hw' Hm) in Hw'. eapply whole_fun; eassumption.
Qed.
Print Assumptions C79_cut_does_not_matter.
(** Otherwise there are at most two results: the last full block is marked as the last, or an empty block follows it. *)
Theorem C79_at_most_two :
  forall f level bb inp p1 p2 p3, octets inp -> packs f level bb inp p1 -> packs f level bb inp p2 -> packs f level bb inp p3 -> p1 = p2 \/ p1 = p3 \/ p2 = p3.
Proof.
  intros f level bb inp p1 p2 p3 Hi H1 H2 H3. pose proof (block_ok bb) as [Hb _].
  destruct (packs_whole f level bb inp Hi p1 H1) as (j1 & W1). destruct (packs_whole f level bb inp Hi p2 H2) as (j2 & W2). destruct (packs_whole f level bb inp Hi p3 H3) as (j3 & W3).
  assert (Hj : forall j p, whole inp f level (blockOf bb) j p -> (j * blockOf bb <= length inp <= S j * blockOf bb)%nat) by (intros j p (e & q1 & e' & q2 & _ & A1 & A2 & _); lia).
  assert (C : j1 = j2 \/ j1 = j3 \/ j2 = j3).
  { pose proof (Hj _ _ W1). pose proof (Hj _ _ W2). pose proof (Hj _ _ W3). clear -Hb H H0 H4. set (b := blockOf bb) in *. clearbody b. set (l := length inp) in *. clearbody l.
    assert (forall x y, (x * b <= l)%nat -> (l <= S y * b)%nat -> (x <= S y)%nat) by (intros x y A1 A2; nia).
    pose proof (H1 j1 j2). pose proof (H1 j2 j1). pose proof (H1 j1 j3). pose proof (H1 j3 j1). pose proof (H1 j2 j3). pose proof (H1 j3 j2). lia. }
  destruct C as [ -> | [ -> | -> ] ]; [left|right; left|right; right]; eapply whole_fun; eassumption.
Qed.
Print Assumptions C79_at_most_two.
(** The two results do occur: eight bytes, blocks of eight, with and without asking to finish when they are offered. *)
Example C79_case_two : exists p p', packs rawDeflate balanced 8 (firstn 8 text) p /\ packs rawDeflate balanced 8 (firstn 8 text) p' /\ p <> p'.
Proof.
  destruct (compressStep (cmpReset rawDeflate balanced 8) (firstn 8 (skipn 0 (firstn 8 text))) 100 false) as [c1 [s| | |]] eqn:E; try (vm_compute in E; discriminate).
  assert (Hs : csession rawDeflate balanced 8 (firstn 8 text) (0 + consumed s) ([] ++ produced s) c1) by (eapply cs_call; [apply cs_start| |exact E]; discriminate).
  assert (Ec : match compressStep (cmpReset rawDeflate balanced 8) (firstn 8 (skipn 0 (firstn 8 text))) 100 false with
               | (c1, Ok s) => match compressStep c1 [] 100 true with (c2, Ok s2) => Some (consumed s, produced s, status s2, produced s2) | _ => None end | _ => None end
               = Some (8%nat, [74; 76; 130; 64], done, [192; 0])) by (vm_compute; reflexivity).
  rewrite E in Ec. clear E. destruct (compressStep c1 [] 100 true) as [c2 [s2| | |]] eqn:E2; try discriminate. assert (E3 : consumed s = 8%nat) by congruence. assert (E4 : produced s = [74; 76; 130; 64]) by congruence.
  assert (E5 : status s2 = done) by congruence. assert (E6 : produced s2 = [192; 0]) by congruence. clear Ec. rewrite E3, E4 in Hs.
  exists (match crun (firstn 8 text) [(8, 100)]%nat 0 [] (cmpReset rawDeflate balanced 8) with Some (_, out, _) => out | None => [] end), ([74; 76; 130; 64] ++ [192; 0]). split; [apply (packs_run _ _ _ _ [(8, 100)]%nat); vm_compute; reflexivity|]. split; [|vm_compute; discriminate].
  exists 8%nat, [74; 76; 130; 64], c1, 0%nat, 100%nat, true, c2, s2. split; [exact Hs|]. split; [intros _; cbn; lia|]. split; [exact E2|]. split; [exact E5|]. rewrite E6. reflexivity.
Qed.
Example C79_case : (length text mod blockOf 8 <> 0)%nat /\ packs gzip balanced 8 text packedText /\
  cshown (crun text [(30, 100)]%nat 0 [] (cmpReset gzip balanced 8)) = Some (30%nat, packedText, true).
Proof. split; [vm_compute; discriminate|]. split; [apply C77_case|vm_compute; reflexivity]. Qed.
(** Calling with all that is left, asking to finish, until done: the number of calls is bounded, and the stream is complete. *)
Fixpoint packAll (k : nat) (c : Cmp) (rest : list N) (room : nat) : option (list N) :=
  match k with
  | O => None
  | S k' =>
      match compressStep c rest room true with
      | (c', Ok s) =>
          match status s with
          | done => Some (produced s)
          | _ => match packAll k' c' (skipn (consumed s) rest) room with Some l => Some (produced s ++ l) | None => None end
          end
      | _ => None
      end
  end.
Theorem C79_finishing_loop_ends :
  forall f level bb inp t out c room, octets inp -> csession f level bb inp t out c -> (0 < room)%nat ->
    let most := (length inp + 6 * (length inp / blockOf bb + 1) + match f with rawDeflate => 0 | zlib => 6 | gzip => 18 end)%nat in
    exists rest, packAll (S ((most - length out) / room)) c (skipn t inp) room = Some rest /\ packs f level bb inp (out ++ rest).
Proof.
  intros f level bb inp t out c room Hi Hs Hr. cbn zeta. set (most := (length inp + _ + _)%nat). remember ((most - length out) / room)%nat as k eqn:Ek.
  assert (Hk : (most - length out < S k * room)%nat).
  { rewrite Ek. pose proof (Nat.div_mod (most - length out) room ltac:(lia)). pose proof (Nat.mod_upper_bound (most - length out) room ltac:(lia)). nia. }
  clear Ek. revert t out c Hs Hk. induction k as [|k IH]; intros t out c Hs Hk.
  - destruct (csession_call f level bb inp Hi t out c (length inp) room true Hs ltac:(intros; lia)) as (c' & s & E & R & _ & H2 & _ & _ & H5 & _).
    rewrite firstn_all2 in E by (rewrite skipn_length; lia).
    assert (Hd : status s = done).
    { destruct (status s) eqn:Es; try reflexivity; exfalso; destruct (H5 ltac:(discriminate)) as [H|(_ & H & _)]; try discriminate H;
      pose proof (running_bound inp f level (blockOf bb) Hi (block_ok bb) _ _ _ R) as Hb; change (streamBound inp f (blockOf bb)) with most in Hb; rewrite app_length in Hb; lia. }
    exists (produced s). cbn [packAll]. rewrite E, Hd. split; [reflexivity|]. exists t, out, c, (length inp), room, true, c', s. split; [exact Hs|]. split; [intros; lia|].
    split; [rewrite firstn_all2 by (rewrite skipn_length; lia); exact E|]. split; [exact Hd|reflexivity].
  - destruct (csession_call f level bb inp Hi t out c (length inp) room true Hs ltac:(intros; lia)) as (c' & s & E & R & _ & H2 & _ & _ & H5 & _).
    assert (Hs' : csession f level bb inp (t + consumed s) (out ++ produced s) c') by (eapply cs_call; [exact Hs| |exact E]; intros; lia).
    assert (Hcase : status s = done \/ (length (produced s) = room /\ status s <> done)).
    { destruct (status s) eqn:Es; [| |left; reflexivity]; right; (split; [|discriminate]); destruct (H5 ltac:(discriminate)) as [H|(_ & H & _)]; [exact H|discriminate H|exact H|discriminate H]. }
    destruct Hcase as [Hd|[Hfull Hnd]].
    + exists (produced s). split.
      * remember (S k) as k1. cbn [packAll]. rewrite firstn_all2 in E by (rewrite skipn_length; lia). rewrite E, Hd. reflexivity.
      * exists t, out, c, (length inp), room, true, c', s. split; [exact Hs|]. split; [intros; lia|]. split; [exact E|]. split; [exact Hd|reflexivity].
    + destruct (IH _ _ _ Hs') as (l & El & Ed).
      { rewrite app_length. pose proof (running_bound inp f level (blockOf bb) Hi (block_ok bb) _ _ _ R) as Hb. change (streamBound inp f (blockOf bb)) with most in Hb. rewrite app_length in Hb. nia. }
      rewrite <- app_assoc in Ed. exists (produced s ++ l). split; [|exact Ed]. remember (S k) as k1. cbn [packAll]. rewrite firstn_all2 in E by (rewrite skipn_length; lia). rewrite E.
      assert (Esk : skipn (consumed s) (skipn t inp) = skipn (t + consumed s) inp) by apply skip_more. rewrite Esk, El. destruct (status s); [reflexivity|reflexivity|contradiction Hnd; reflexivity].
Qed.
Print Assumptions C79_finishing_loop_ends.
Example C79_case_loop : packAll 12 (cmpReset gzip balanced 8) text 4 = Some packedText /\ packAll 5 (cmpReset gzip balanced 8) text 4 = None.
Proof. vm_compute. auto. Qed.

(* ------------------------------------------------------------------ C80 *)

(** C80.  "status says why the call returned; act on it rather than inferring from consumed/produced" (CP:78), for the compressor.
    What holds: done means finished, needOutput means that the room is used up, and needInput means that all that was offered has been
    consumed and finishing was not asked for — or that the room is used up. *)
Theorem C80_status_partial :
  forall f level bb inp t out c n room fin c' s, octets inp -> csession f level bb inp t out c -> (fin = true -> (length inp <= t + n)%nat) ->
    compressStep c (firstn n (skipn t inp)) room fin = (c', Ok s) ->
    match status s with
    | done => cfinished c' = true /\ (t + consumed s)%nat = length inp
    | needOutput => length (produced s) = room
    | needInput => length (produced s) = room \/ (consumed s = length (firstn n (skipn t inp)) /\ fin = false)
    end.
Proof.
  intros f level bb inp t out c n room fin c' s Hi Hs Hf E. destruct (csession_call f level bb inp Hi t out c n room fin Hs Hf) as (c2 & s2 & E2 & _ & _ & _ & H3 & H4 & H5 & H6).
  rewrite E in E2. injection E2 as -> ->. destruct (status s2) eqn:Es.
  - destruct (H5 ltac:(discriminate)) as [H|(H & H' & _)]; auto.
  - apply H6. reflexivity.
  - split; [apply H3; reflexivity|]. apply H4. reflexivity.
Qed.
Print Assumptions C80_status_partial.
(** What does not: a call can ask for input although none of what it was offered has been consumed (the header just fills the room), *)
Theorem C80_status_offered_refuted :
  snd (compressStep (cmpReset gzip balanced 65535) [1; 2; 3] 10 false) = Ok {| consumed := 0; produced := [31; 139; 8; 0; 0; 0; 0; 0; 0; 255]; status := needInput |}.
Proof. vm_compute. reflexivity. Qed.
Print Assumptions C80_status_offered_refuted.
(** and it can ask for input although everything has been consumed, finishing was asked for, and the whole stream has been delivered: a further
    call, with nothing, is needed before the compressor says done. *)
Theorem C80_status_finished_refuted :
  match compressStep (cmpReset rawDeflate balanced 65535) [1; 2; 3] 5 true with
  | (c, Ok s) => (consumed s, produced s, status s) = (3%nat, [99; 100; 98; 6; 0], needInput) /\ Encodes rawDeflate (produced s) [1; 2; 3] /\
                 snd (compressStep c [] 5 true) = Ok {| consumed := 0; produced := []; status := done |}
  | _ => False
  end.
Proof.
  assert (Ec : match compressStep (cmpReset rawDeflate balanced 65535) [1; 2; 3] 5 true with
               | (c, Ok s) => Some (consumed s, produced s, status s, snd (compressStep c [] 5 true)) | _ => None end
               = Some (3%nat, [99; 100; 98; 6; 0], needInput, Ok {| consumed := 0; produced := []; status := done |})) by (vm_compute; reflexivity).
  destruct (compressStep (cmpReset rawDeflate balanced 65535) [1; 2; 3] 5 true) as [c [s| | |]]; try discriminate.
  assert (E4 : produced s = [99; 100; 98; 6; 0]) by congruence. split; [congruence|]. split; [|congruence]. clear Ec. rewrite E4.
  apply (C63_decompress_iff 1 _ rawDeflate 100 [1; 2; 3]); [apply octetsb_ok; vm_compute; reflexivity|vm_compute; discriminate|vm_compute; reflexivity].
Qed.
Print Assumptions C80_status_finished_refuted.
(** "errors are sticky" (CP:79) fails here too: after done, offering a byte is an error, and the call after it succeeds. *)
Theorem C80_sticky_refuted :
  match compressStep (cmpReset rawDeflate balanced 65535) [1; 2; 3] 100 true with
  | (c, Ok s) => match compressStep c [4] 100 true with
                 | (c2, Err e) => (status s, e, snd (compressStep c2 [] 100 true)) = (done, trailingData, Ok {| consumed := 0; produced := []; status := done |})
                 | _ => False
                 end
  | _ => False
  end.
Proof. vm_compute. reflexivity. Qed.
Print Assumptions C80_sticky_refuted.
Example C80_case : snd (compressStep (cmpReset gzip balanced 65535) [1; 2; 3] 11 false) = Ok {| consumed := 3; produced := [31; 139; 8; 0; 0; 0; 0; 0; 0; 255]; status := needInput |} /\ octets [1; 2; 3].
Proof. split; [vm_compute; reflexivity|]. apply octetsb_ok; vm_compute; reflexivity. Qed.
