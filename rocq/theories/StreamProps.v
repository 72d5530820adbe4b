(** * Properties of the streaming decompressor. *)
From Coq Require Import List NArith Arith Bool Lia ZifyBool ZifyNat ZifyN.
From Verif Require Import Base CompModel CompSpec CompBits CompDec CompBlk CompWrap CompTop CompProps StreamModel StreamRd StreamOut StreamInf StreamDec.
Import ListNotations.
Local Open Scope N_scope.

(** ** Use of the object
    [inp] is everything the source will deliver.  [session f limit inp c out d]: some calls on a decompressor made for [f] and [limit]
    (or reset to them, whatever its history array holds) have consumed [c] bytes of [inp] and produced [out], all without an error.
    Each call offers any number of the bytes not yet consumed, any room, and asks to finish only if nothing more will come. *)
Inductive session (f : Format) (limit : N) (inp : list N) : nat -> list N -> Dec -> Prop :=
| se_start hist : session f limit inp 0 [] (decReset f limit hist)
| se_call c out d n room fin d' s : session f limit inp c out d -> (fin = true -> (length inp <= c + n)%nat) ->
    process d (firstn n (skipn c inp)) room fin = (d', Ok s) ->
    session f limit inp (c + consumed s) (out ++ produced s) d'.
(** The session is complete: the last call said done and the source is used up. *)
Definition completes (f : Format) (limit : N) (inp data : list N) : Prop :=
  exists c out d n room fin d' s, session f limit inp c out d /\ (fin = true -> (length inp <= c + n)%nat) /\
    process d (firstn n (skipn c inp)) room fin = (d', Ok s) /\ status s = done /\ (c + consumed s = length inp)%nat /\ data = out ++ produced s.

Section Facts.
Variables (f : Format) (limit : N) (inp : list N).
Hypothesis Hinp : octets inp.
Lemma session_ready c out d : session f limit inp c out d -> ready inp 1 f limit c out d.
Proof.
  induction 1 as [hist|c out d n room fin d' s _ IH Hf E]; [apply start_ready, Hinp|].
  pose proof (call_ok inp 1 f limit Hinp c n out fin room d IH Hf) as H. rewrite E in H. cbn [callOk] in H. apply H.
Qed.
Lemma session_call c out d n room fin : session f limit inp c out d -> (fin = true -> (length inp <= c + n)%nat) ->
  callOk inp 1 f limit c n out fin room (process d (firstn n (skipn c inp)) room fin).
Proof. intros H Hf. apply call_ok; [exact Hinp|apply session_ready, H|exact Hf]. Qed.
Lemma oneShot_ok o pre m : oneShot inp 1 f limit = Ok (osize o, o) -> rep o pre m -> isSpan o ->
  Encodes f inp (pre ++ m).
Proof.
  intros E Hr Hs. assert (Es : decompressSpan 1 inp (repeat 0 (N.to_nat limit)) f = Ok (osize o, match o with Span b _ _ => b | _ => [] end)).
  { unfold decompressSpan. unfold oneShot in E. rewrite E. cbn [bind]. destruct o; [contradiction|reflexivity]. }
  destruct (span_sound _ _ _ _ _ _ Hinp Es) as (data & He & Hn & _ & Hf). rewrite <- (rep_whole _ _ _ Hr Hs), Hn. unfold bytesN. rewrite Nat2N.id, Hf. exact He.
Qed.
Lemma oneShot_encodes data : Encodes f inp data -> bytesN data <= limit -> ~ isErr (oneShot inp 1 f limit).
Proof.
  intros He Hl (e & E). destruct (span_complete 1 inp f (repeat 0 (N.to_nat limit)) data Hinp He) as (b & Eb & _).
  - rewrite repeat_length. unfold bytesN in Hl. lia.
  - unfold decompressSpan in Eb. unfold oneShot in E. rewrite E in Eb. discriminate.
Qed.
(** From any point a call with everything that is left and enough room ends the session. *)
Lemma rest_of_stream data c out d : Encodes f inp data -> bytesN data <= limit -> session f limit inp c out d -> exists rest, data = out ++ rest.
Proof.
  intros He Hl Hs. pose proof (session_call c out d (length inp) (S (N.to_nat limit)) true Hs ltac:(intros; lia)) as H.
  pose proof (oneShot_encodes data He Hl) as Hno. destruct (process d (firstn (length inp) (skipn c inp)) (S (N.to_nat limit)) true) as [d' [s|e| |]]; cbn [callOk] in H; try contradiction.
  destruct H as ((R1 & R2 & R3) & H2 & H3 & H4). destruct (status s).
  - destruct H4; discriminate.
  - exfalso. unfold bytesN in R2. rewrite app_length in R2. lia.
  - destruct H4 as (E1 & E2 & E3). rewrite firstn_length, skipn_length in E1. destruct (Nat.eq_dec (c + consumed s) (length inp)) as [E|E]; [|contradiction (Hno (E2 E))].
    destruct (E3 E) as (o & pre & m & Eo & Hr & Hsp & Epm). pose proof (oneShot_ok _ _ _ Eo Hr Hsp) as He'. rewrite Epm in He'.
    exists (produced s). apply (C66_unambiguous f inp); assumption.
Qed.
End Facts.

(* ------------------------------------------------------------------ C71 *)

(** C71.  Whatever the pieces and the room of each call: when the stream is used up and the status is done, the bytes produced are the
    content of the stream, within the limit. *)
Theorem C71_stream_sound : forall f limit inp data, octets inp -> completes f limit inp data -> Encodes f inp data /\ bytesN data <= limit.
Proof.
  intros f limit inp data Hi (c & out & d & n & room & fin & d' & s & Hs & Hf & E & Es & Ec & ->).
  pose proof (session_call f limit inp Hi c out d n room fin Hs Hf) as H. rewrite E in H. cbn [callOk] in H. rewrite Es in H.
  destruct H as ((R1 & R2 & R3) & H2 & H3 & H4 & H5 & H6). split; [|exact R2]. destruct (H6 Ec) as (o & pre & m & Eo & Hr & Hsp & Epm). rewrite <- Epm.
  eapply oneShot_ok; eassumption.
Qed.
Print Assumptions C71_stream_sound.

(** Every call stays within what it was given: it consumes no more than it was offered, writes no more than there is room for, and the
    bytes produced so far never exceed the limit. *)
Theorem C71_call_within_bounds :
  forall f limit inp c out d n room fin d' s, octets inp -> session f limit inp c out d -> (fin = true -> (length inp <= c + n)%nat) ->
    process d (firstn n (skipn c inp)) room fin = (d', Ok s) ->
    (consumed s <= length (firstn n (skipn c inp)))%nat /\ (c + consumed s <= length inp)%nat /\ (length (produced s) <= room)%nat /\
    bytesN (out ++ produced s) <= limit.
Proof.
  intros f limit inp c out d n room fin d' s Hi Hs Hf E. pose proof (session_call f limit inp Hi c out d n room fin Hs Hf) as H. rewrite E in H. cbn [callOk] in H.
  destruct H as ((R1 & R2 & R3) & H2 & H3 & _). auto.
Qed.
Print Assumptions C71_call_within_bounds.

(** A session given by the sizes of its calls, finishing as soon as a piece reaches the end of [inp]; used for concrete cases. *)
Definition fresh (f : Format) (limit : N) : Dec := decReset f limit (fun _ => 0).
Fixpoint run (inp : list N) (calls : list (nat * nat)) (c : nat) (out : list N) (d : Dec) : option (nat * list N * Dec) :=
  match calls with
  | [] => Some (c, out, d)
  | (n, room) :: t =>
      match process d (firstn n (skipn c inp)) room (length inp <=? c + n)%nat with
      | (d', Ok s) => run inp t (c + consumed s) (out ++ produced s) d'
      | _ => None
      end
  end.
Lemma run_session f limit inp : forall calls c out d c' out' d', session f limit inp c out d -> run inp calls c out d = Some (c', out', d') -> session f limit inp c' out' d'.
Proof.
  induction calls as [|[n room] t IH]; intros c out d c' out' d' Hs E; cbn [run] in E; [congruence|].
  destruct (process d (firstn n (skipn c inp)) room (length inp <=? c + n)%nat) as [d1 [s|e| |]] eqn:Ep; try discriminate.
  eapply IH; [|exact E]. eapply se_call; [exact Hs| |exact Ep]. intros Hl. lia.
Qed.
(** What a session shows: bytes consumed, bytes produced, done or not. *)
Definition shown (x : option (nat * list N * Dec)) : option (nat * list N * bool) := match x with Some (c, out, d) => Some (c, out, finished d) | None => None end.
Definition pieces : list (nat * nat) := repeat (6, 4)%nat 70.

Example C71_case_in_pieces :
  shown (run rawStream pieces 0 [] (fresh rawDeflate 150)) = Some (36%nat, plain, true) /\
  shown (run zlibStream pieces 0 [] (fresh zlib 150)) = Some (42%nat, plain, true) /\
  shown (run gzipStream pieces 0 [] (fresh gzip 150)) = Some (67%nat, gzipPlain, true).
Proof. vm_compute. auto. Qed.
Lemma done_empty d room fin : finished d = true -> exists d' s, process d [] room fin = (d', Ok s) /\ status s = done /\ consumed s = 0%nat /\ produced s = [].
Proof.
  unfold finished, process. destruct (dst d) eqn:Ed; intros Ef; try discriminate. set (e := setOut (setRd d (setInput (drd d) [])) (setTarget (dout d) room)).
  assert (Hl : dloop (decFuel e) fin e = (e, Finished)).
  { assert (Hs : dstep fin e = (e, Finished)) by (unfold dstep; subst e; cbn [setOut setRd dst drd setInput rpos rinput length]; rewrite Ed; reflexivity).
    unfold decFuel. rewrite Nat.add_comm. cbn [Nat.add dloop]. rewrite Hs. reflexivity. }
  rewrite Hl. eexists. eexists. split; [reflexivity|]. cbn [status consumed produced]. subst e. cbn [setOut setRd dst drd dout setTarget setInput sout rpos]. rewrite Ed. auto.
Qed.
Example C71_case : completes gzip 15 gzipStream gzipPlain /\ octets gzipStream.
Proof.
  split; [|apply octetsb_ok; vm_compute; reflexivity].
  destruct (run gzipStream (repeat (5, 6)%nat 15) 0 [] (fresh gzip 15)) as [[[c out] d]|] eqn:E; [|vm_compute in E; discriminate].
  assert (Hs : session gzip 15 gzipStream c out d) by (eapply run_session; [apply se_start|exact E]).
  assert (Ec : shown (run gzipStream (repeat (5, 6)%nat 15) 0 [] (fresh gzip 15)) = Some (67%nat, gzipPlain, true)) by (vm_compute; reflexivity).
  rewrite E in Ec. cbn [shown] in Ec. assert (c = 67%nat) by congruence. assert (out = gzipPlain) by congruence. assert (Ef : finished d = true) by congruence. subst c out.
  clear E Ec. destruct (done_empty d 1 true Ef) as (d' & s & Ep & E1 & E2 & E3). exists 67%nat, gzipPlain, d, 0%nat, 1%nat, true, d', s.
  split; [exact Hs|]. split; [intros _; vm_compute; lia|].
  split; [exact Ep|]. split; [exact E1|]. split; [rewrite E2; reflexivity|rewrite E3, app_nil_r; reflexivity].
Qed.

(* ------------------------------------------------------------------ C72 *)

(** C72.  A well-formed stream whose content fits in the limit is never refused, however it is cut up: every call succeeds, what has been
    produced is always the beginning of the content, done means that all of it is there and the stream is used up, and a call that asks to
    finish ends with done or has filled all its room. *)
Theorem C72_stream_complete :
  forall f limit inp data c out d n room fin, octets inp -> Encodes f inp data -> bytesN data <= limit ->
    session f limit inp c out d -> (fin = true -> (length inp <= c + n)%nat) ->
    exists d' s, process d (firstn n (skipn c inp)) room fin = (d', Ok s) /\
      (exists rest, data = (out ++ produced s) ++ rest) /\
      match status s with
      | done => out ++ produced s = data /\ (c + consumed s = length inp)%nat
      | needOutput => length (produced s) = room
      | needInput => fin = false
      end.
Proof.
  intros f limit inp data c out d n room fin Hi He Hl Hs Hf. pose proof (session_call f limit inp Hi c out d n room fin Hs Hf) as H.
  pose proof (oneShot_encodes f limit inp Hi data He Hl) as Hno.
  destruct (process d (firstn n (skipn c inp)) room fin) as [d' [s|e| |]] eqn:E; cbn [callOk] in H; try contradiction.
  exists d', s. split; [reflexivity|]. split; [apply (rest_of_stream f limit inp Hi data (c + consumed s) _ d'); try assumption; eapply se_call; eassumption|].
  destruct H as (H1 & H2 & H3 & H4). destruct (status s); [apply H4|exact H4|]. destruct H4 as (E1 & E2 & E3).
  destruct (Nat.eq_dec (c + consumed s) (length inp)) as [Ec|Ec]; [|contradiction (Hno (E2 Ec))]. split; [|exact Ec].
  destruct (E3 Ec) as (o & pre & m & Eo & Hr & Hsp & Epm). pose proof (oneShot_ok f limit inp Hi _ _ _ Eo Hr Hsp) as He'. rewrite Epm in He'.
  apply (C66_unambiguous f inp); assumption.
Qed.
Print Assumptions C72_stream_complete.

Example C72_case : Encodes rawDeflate rawStream plain /\ bytesN plain <= 150 /\ octets rawStream /\
  exists c out d, session rawDeflate 150 rawStream c out d /\ c = 35%nat /\ length out = 52%nat.
Proof.
  split; [exact (proj2 (proj2 C63_case_raw))|]. split; [vm_compute; discriminate|]. split; [apply C63_case_raw|].
  destruct (run rawStream (repeat (3, 4)%nat 19) 0 [] (fresh rawDeflate 150)) as [[[c out] d]|] eqn:E; [|vm_compute in E; discriminate].
  exists c, out, d. split; [eapply run_session; [apply se_start|exact E]|].
  assert (Ec : option_map (fun x => (fst (fst x), length (snd (fst x)))) (run rawStream (repeat (3, 4)%nat 19) 0 [] (fresh rawDeflate 150)) = Some (35%nat, 52%nat)) by (vm_compute; reflexivity).
  rewrite E in Ec. cbn [option_map fst snd] in Ec. split; congruence.
Qed.

(* ------------------------------------------------------------------ C73 *)

(** C73.  Bytes of any kind, in pieces of any kind: every call up to and including the first that reports an error terminates with a result
    or an error code; no access outside the input, the output, the window or a table ([Fault] in the model; running out of fuel is [Hang]). *)
Theorem C73_hostile_stream :
  forall f limit inp c out d n room fin, octets inp -> session f limit inp c out d -> (fin = true -> (length inp <= c + n)%nat) ->
    exists d', (exists s, process d (firstn n (skipn c inp)) room fin = (d', Ok s)) \/ (exists e, process d (firstn n (skipn c inp)) room fin = (d', Err e)).
Proof.
  intros f limit inp c out d n room fin Hi Hs Hf. pose proof (session_call f limit inp Hi c out d n room fin Hs Hf) as H.
  destruct (process d (firstn n (skipn c inp)) room fin) as [d' [s|e| |]]; cbn [callOk] in H; try contradiction; exists d'; eauto.
Qed.
Print Assumptions C73_hostile_stream.

Example C73_case : octets [255; 255; 255] /\ snd (process (fresh rawDeflate 10) (firstn 3 (skipn 0 [255; 255; 255])) 4 true) = Err invalidBlockType /\
  snd (process (fresh gzip 10) (firstn 2 (skipn 0 [31; 139])) 4 true) = Err truncatedInput.
Proof. split; [apply octetsb_ok; reflexivity|vm_compute; auto]. Qed.

(* ------------------------------------------------------------------ C74 *)

(** C74.  The streaming and the whole-buffer decoder agree: some way of cutting the stream up completes with [data] exactly when the
    whole-buffer call returns [data]; all ways that complete give the same bytes; and if one call of one session reports an error the
    whole-buffer call fails too and no session completes. *)
Theorem C74_agrees_with_whole_buffer :
  forall W f limit inp data, octets inp -> limit <= SIZE_MAX -> (completes f limit inp data <-> decompress W inp f limit = Ok data).
Proof.
  intros W f limit inp data Hi Hm. rewrite C63_decompress_iff by assumption. split; [apply C71_stream_sound, Hi|]. intros [He Hl].
  assert (Hs : session f limit inp 0 [] (fresh f limit)) by apply se_start.
  pose proof (C72_stream_complete f limit inp data 0 [] (fresh f limit) (length inp) (S (N.to_nat limit)) true Hi He Hl Hs ltac:(intros; lia)) as (d' & s & E & _ & H).
  exists 0%nat, [], (fresh f limit), (length inp), (S (N.to_nat limit)), true, d', s. split; [exact Hs|]. split; [intros; lia|]. split; [exact E|].
  pose proof (C71_call_within_bounds f limit inp 0 [] (fresh f limit) (length inp) (S (N.to_nat limit)) true d' s Hi Hs ltac:(intros; lia) E) as (_ & _ & _ & Hb).
  cbn [app] in Hb, H. destruct (status s); [discriminate|unfold bytesN in Hb; lia|]. destruct H as [<- ->]. auto.
Qed.
Print Assumptions C74_agrees_with_whole_buffer.
Theorem C74_cut_does_not_matter : forall f limit inp data1 data2, octets inp -> completes f limit inp data1 -> completes f limit inp data2 -> data1 = data2.
Proof. intros f limit inp d1 d2 Hi H1 H2. apply (C66_unambiguous f inp); [exact Hi| |]; eapply C71_stream_sound; eassumption. Qed.
Print Assumptions C74_cut_does_not_matter.
Theorem C74_error_is_final :
  forall W f limit inp c out d n room fin d' e, octets inp -> limit <= SIZE_MAX -> session f limit inp c out d -> (fin = true -> (length inp <= c + n)%nat) ->
    process d (firstn n (skipn c inp)) room fin = (d', Err e) ->
    (forall data, ~ completes f limit inp data) /\ exists e', decompress W inp f limit = Err e'.
Proof.
  intros W f limit inp c out d n room fin d' e Hi Hm Hs Hf E.
  assert (Hno : forall data, ~ completes f limit inp data).
  { intros data Hc. destruct (C71_stream_sound f limit inp data Hi Hc) as [He Hl].
    destruct (C72_stream_complete f limit inp data c out d n room fin Hi He Hl Hs Hf) as (d2 & s & E2 & _). congruence. }
  split; [exact Hno|]. destruct (proj1 (C64_hostile_input W inp f Hi) limit) as [(data & Ed)|He]; [|exact He].
  exfalso. apply (Hno data), (C74_agrees_with_whole_buffer W f limit inp data Hi Hm), Ed.
Qed.
Print Assumptions C74_error_is_final.
Example C74_case_error : exists c out d n room fin d' e, session zlib 150 badZlib c out d /\ (fin = true -> (length badZlib <= c + n)%nat) /\
  process d (firstn n (skipn c badZlib)) room fin = (d', Err e) /\ (c, length out, e) = (41%nat, 150%nat, checksumMismatch).
Proof.
  assert (Ec : match run badZlib (repeat (41, 150)%nat 1) 0 [] (fresh zlib 150) with
               | Some (c, out, d) => Some (c, length out, match snd (process d (firstn 9 (skipn c badZlib)) 3 false) with Err e => Some e | _ => None end)
               | None => None end = Some (41%nat, 150%nat, Some checksumMismatch)) by (vm_compute; reflexivity).
  destruct (run badZlib (repeat (41, 150)%nat 1) 0 [] (fresh zlib 150)) as [[[c out] d]|] eqn:E; [|discriminate].
  assert (Hs : session zlib 150 badZlib c out d) by (eapply run_session; [apply se_start|exact E]). clear E.
  assert (c = 41%nat) by congruence. assert (length out = 150%nat) by congruence.
  assert (Ee : match snd (process d (firstn 9 (skipn c badZlib)) 3 false) with Err e => Some e | _ => None end = Some checksumMismatch) by congruence.
  destruct (process d (firstn 9 (skipn c badZlib)) 3 false) as [d' x] eqn:Ep. cbn [snd] in Ee. destruct x as [|e| |]; try discriminate.
  exists c, out, d, 9%nat, 3%nat, false, d', e. split; [exact Hs|]. split; [discriminate|]. split; [exact Ep|congruence].
Qed.

(* ------------------------------------------------------------------ C75 *)

(** C75.  A call never stalls: if it asks for input it has taken all of what it was offered but the last few bytes (at most five), if it asks
    for room it has filled what it had. *)
Theorem C75_status_tells_why :
  forall f limit inp c out d n room fin d' s, octets inp -> session f limit inp c out d -> (fin = true -> (length inp <= c + n)%nat) ->
    process d (firstn n (skipn c inp)) room fin = (d', Ok s) ->
    match status s with
    | needInput => fin = false /\ (length (firstn n (skipn c inp)) <= consumed s + 5)%nat
    | needOutput => length (produced s) = room
    | done => consumed s = length (firstn n (skipn c inp))
    end.
Proof.
  intros f limit inp c out d n room fin d' s Hi Hs Hf E. pose proof (session_call f limit inp Hi c out d n room fin Hs Hf) as H. rewrite E in H. cbn [callOk] in H.
  destruct H as (_ & _ & _ & H). destruct (status s); [exact H|exact H|apply H].
Qed.
Print Assumptions C75_status_tells_why.
Lemma skip_skip {A} (l : list A) : forall a b, skipn a (skipn b l) = skipn (b + a) l.
Proof. intros a b. revert l. induction b as [|b IH]; intros l; [reflexivity|]. destruct l; [rewrite !skipn_nil; reflexivity|apply IH]. Qed.
(** The loop of the header comment (CP:64-73) once the source has ended: it stops, after as many calls as the output needs, with all of it. *)
Fixpoint drainAll (k : nat) (d : Dec) (rest : list N) (room : nat) : option (list N) :=
  match k with
  | O => None
  | S k' =>
      match process d rest room true with
      | (d', Ok s) =>
          match status s with
          | done => Some (produced s)
          | _ => match drainAll k' d' (skipn (consumed s) rest) room with Some l => Some (produced s ++ l) | None => None end
          end
      | _ => None
      end
  end.
Theorem C75_finishing_loop_ends :
  forall f limit inp data c out d room, octets inp -> Encodes f inp data -> bytesN data <= limit -> session f limit inp c out d -> (0 < room)%nat ->
    exists rest, drainAll (S ((length data - length out) / room)) d (skipn c inp) room = Some rest /\ out ++ rest = data.
Proof.
  intros f limit inp data c out d room Hi He Hl Hs Hr. remember ((length data - length out) / room)%nat as k eqn:Ek.
  assert (Hk : (length data - length out < S k * room)%nat).
  { rewrite Ek. pose proof (Nat.div_mod (length data - length out) room ltac:(lia)). pose proof (Nat.mod_upper_bound (length data - length out) room ltac:(lia)). nia. }
  clear Ek. revert c out d Hs Hk. induction k as [|k IH]; intros c out d Hs Hk; cbn [drainAll].
  - destruct (C72_stream_complete f limit inp data c out d (length inp) room true Hi He Hl Hs ltac:(intros; lia)) as (d' & s & E & (rest & Er) & H).
    rewrite firstn_all2 in E by (rewrite skipn_length; lia). rewrite E. destruct (status s); [discriminate| |].
    + exfalso. apply (f_equal (@length N)) in Er. rewrite !app_length in Er. lia.
    + exists (produced s). split; [reflexivity|apply H].
  - destruct (C72_stream_complete f limit inp data c out d (length inp) room true Hi He Hl Hs ltac:(intros; lia)) as (d' & s & E & (rest & Er) & H).
    assert (Hs' : session f limit inp (c + consumed s) (out ++ produced s) d') by (eapply se_call; [exact Hs| |exact E]; intros; lia).
    rewrite firstn_all2 in E by (rewrite skipn_length; lia). rewrite E. destruct (status s); [discriminate| |].
    + destruct (IH _ _ _ Hs') as (l & El & Ed).
      { rewrite app_length. apply (f_equal (@length N)) in Er. rewrite !app_length in Er. nia. }
      assert (Esk : skipn (consumed s) (skipn c inp) = skipn (c + consumed s) inp) by apply skip_skip.
      rewrite Esk.
      exists (produced s ++ l). cbn [drainAll] in El. rewrite El. split; [reflexivity|]. rewrite app_assoc. exact Ed.
    + exists (produced s). split; [reflexivity|apply H].
Qed.
Print Assumptions C75_finishing_loop_ends.
Example C75_case : drainAll 16 (fresh rawDeflate 150) rawStream 10 = Some plain /\ drainAll 14 (fresh rawDeflate 150) rawStream 10 = None.
Proof. vm_compute. auto. Qed.
Example C75_case_rewind : exists d' s, process (fresh rawDeflate 150) (firstn 10 rawStream) 100 false = (d', Ok s) /\ status s = needInput /\ (consumed s < 10)%nat.
Proof.
  assert (E : match process (fresh rawDeflate 150) (firstn 10 rawStream) 100 false with (_, Ok s) => Some (status s, (consumed s <? 10)%nat) | _ => None end = Some (needInput, true)) by (vm_compute; reflexivity).
  destruct (process (fresh rawDeflate 150) (firstn 10 rawStream) 100 false) as [d' [s|e| |]]; try discriminate. exists d', s. split; [reflexivity|].
  assert (E1 : status s = needInput) by congruence. assert (E2 : (consumed s <? 10)%nat = true) by congruence. split; [exact E1|lia].
Qed.

(* ------------------------------------------------------------------ C76 *)

(** C76.  "errors are sticky: once process() fails it keeps failing and produces nothing until reset()" (CP:79). *)
Definition afterError (f : Format) (first second : list N) : option (Error * res StreamResult) :=
  match process (fresh f 1000) first 100 false with
  | (d, Err e) => Some (e, snd (process d second 100 true))
  | _ => None
  end.
(** A gzip stream that follows a byte which is not a gzip header decodes as if the failed call had not been made. *)
Theorem C76_sticky_gzip_refuted :
  afterError gzip [0] (skipn 41 gzipStream) = Some (invalidHeader, Ok {| consumed := 26; produced := [120; 121; 122]; status := done |}).
Proof. vm_compute. reflexivity. Qed.
Print Assumptions C76_sticky_gzip_refuted.
(** After an invalid block type in raw DEFLATE data the next bytes are decoded as a new block. *)
Theorem C76_sticky_raw_refuted :
  exists rest s, afterError rawDeflate [7] rest = Some (invalidBlockType, Ok s) /\ produced s <> [] /\ status s = done.
Proof.
  exists [1; 0; 254; 255; 97; 3; 0], {| consumed := 7; produced := [97]; status := done |}. vm_compute. split; [reflexivity|]. split; [discriminate|reflexivity].
Qed.
Print Assumptions C76_sticky_raw_refuted.
(** After trailing data was reported the next empty call says that the stream is complete. *)
Theorem C76_sticky_done_refuted :
  afterError rawDeflate [75; 4; 0; 9] [] = Some (trailingData, Ok {| consumed := 0; produced := []; status := done |}).
Proof. vm_compute. reflexivity. Qed.
Print Assumptions C76_sticky_done_refuted.
