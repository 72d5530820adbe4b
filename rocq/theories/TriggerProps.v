(** Properties of the basic trigger filter: C36, C37. *)
From Coq Require Import String Ascii Bool List.
From Verif Require Import TriggerModel TriggerSpec TriggerProofs.
Import ListNotations.
Notation "$ s" := (list_ascii_of_string s%string) (at level 1, only parsing).

(** ** C36: start/stop pairs.

    The filter text is two sides separated by a comma, with or without brackets and with any blanks around the pieces.  Whatever
    the matcher did before, a run of tags is answered as the window with the four phases prescribes. *)
Theorem C36_pair : forall m s1 s2 p1 p2 s0 S E ts,
  sfilter s0 <> Some m ->
  content m (s1 ++ RANGE_OP :: s2) -> rendered p1 s1 -> rendered p2 s2 ->
  clean (pname p1) -> clean (pctx p1) -> clean (pname p2) -> clean (pctx p2) ->
  pname p1 <> [] \/ pctx p1 <> [] -> pname p2 <> [] \/ pctx p2 <> [] ->
  ~ (pname p1 = pname p2 /\ pctx p1 = pctx p2) ->
  (forall t, S t = true <-> satisfies p1 t) -> (forall t, E t = true <-> satisfies p2 t) ->
  snd (run m ts s0) = map Some (phaseRun S E (pnameEnds p1 || pctxEnds p1) (pnameEnds p2 || pctxEnds p2) Idle ts).
Proof.
  intros m s1 s2 p1 p2 s0 S E ts Hs Hc R1 R2 A1 A2 B1 B2 N1 N2 Hd HS HE.
  rewrite (run_first m ts s0 (pairState m p1 p2)) by (apply (verify_pair m s1 s2); assumption).
  rewrite (run_pair m p1 p2 ts (pairState m p1 p2) Idle) by (repeat split).
  f_equal. apply phaseRun_ext; intros t; apply decider_eq; assumption.
Qed.
Print Assumptions C36_pair.

(** Without marks the answer to a tag is a function of the tags seen before: Matching opens the window, NotMatching closes it. *)
Theorem C36_window : forall m s1 s2 p1 p2 s0 S E before t,
  sfilter s0 <> Some m ->
  content m (s1 ++ RANGE_OP :: s2) -> rendered p1 s1 -> rendered p2 s2 ->
  clean (pname p1) -> clean (pctx p1) -> clean (pname p2) -> clean (pctx p2) ->
  pname p1 <> [] \/ pctx p1 <> [] -> pname p2 <> [] \/ pctx p2 <> [] ->
  ~ (pname p1 = pname p2 /\ pctx p1 = pctx p2) ->
  (forall t, S t = true <-> satisfies p1 t) -> (forall t, E t = true <-> satisfies p2 t) ->
  pnameEnds p1 = false -> pctxEnds p1 = false -> pnameEnds p2 = false -> pctxEnds p2 = false ->
  nth_error (snd (run m (before ++ [t]) s0)) (length before) = Some (Some (windowResult S E (rev before) t)).
Proof.
  intros m s1 s2 p1 p2 s0 S E before t Hs Hc R1 R2 A1 A2 B1 B2 N1 N2 Hd HS HE M1 M2 M3 M4.
  rewrite (C36_pair m s1 s2 p1 p2 s0 S E) by assumption. rewrite M1, M2, M3, M4. cbn [orb].
  pose proof (phase_window S E (before ++ [t]) []) as W. cbn [windowOpen] in W. rewrite W. clear W.
  rewrite nth_error_map. rewrite <- (app_nil_r (rev before)).
  set (tl := [t]). generalize (@nil tag) as seen. assert (Ht : exists r, tl = t :: r) by (exists []; reflexivity). clearbody tl.
  induction before as [|b before IH]; intros seen; [destruct Ht as [r ->]; reflexivity|]. cbn [app length nth_error rev]. rewrite <- app_assoc. exact (IH (b :: seen)).
Qed.
Print Assumptions C36_window.

(** With or without marks, starts and stops alternate, beginning with a start. *)
Theorem C36_alternate : forall m s1 s2 p1 p2 s0 ts rs,
  sfilter s0 <> Some m ->
  content m (s1 ++ RANGE_OP :: s2) -> rendered p1 s1 -> rendered p2 s2 ->
  clean (pname p1) -> clean (pctx p1) -> clean (pname p2) -> clean (pctx p2) ->
  pname p1 <> [] \/ pctx p1 <> [] -> pname p2 <> [] \/ pctx p2 <> [] ->
  ~ (pname p1 = pname p2 /\ pctx p1 = pctx p2) ->
  snd (run m ts s0) = map Some rs -> alternates false rs.
Proof.
  intros m s1 s2 p1 p2 s0 ts rs Hs Hc R1 R2 A1 A2 B1 B2 N1 N2 Hd H.
  rewrite (C36_pair m s1 s2 p1 p2 s0 (satb p1) (satb p2)) in H by (auto using satb_iff).
  assert (X : rs = phaseRun (satb p1) (satb p2) (pnameEnds p1 || pctxEnds p1) (pnameEnds p2 || pctxEnds p2) Idle ts).
  { clear - H. revert H. generalize (phaseRun (satb p1) (satb p2) (pnameEnds p1 || pctxEnds p1) (pnameEnds p2 || pctxEnds p2) Idle ts) as l. induction rs as [|r rs IH]; intros [|x l] H; try discriminate; [reflexivity|].
    cbn [map] in H. injection H as -> H. f_equal. apply IH. exact H. }
  rewrite X. exact (phase_alternates _ _ _ _ ts Idle).
Qed.
Print Assumptions C36_alternate.

(** A filter the matcher has not just been used with starts from scratch. *)
Theorem C36_filter_change : forall m ts s s',
  sfilter s <> Some m -> sfilter s' <> Some m -> snd (run m ts s) = snd (run m ts s').
Proof. exact run_new. Qed.
Print Assumptions C36_filter_change.

(** ** C36: single filters.  Partial: the context is compared the wrong way round, so the full statement (Matching iff [satisfies])
    fails; what holds is the same statement with the containment of the contexts reversed, and the full one for filters
    that name no context. *)
Theorem C36_single_partial : forall m s1 p s0 ts i t,
  sfilter s0 <> Some m -> content m s1 -> rendered p s1 -> clean (pname p) -> clean (pctx p) -> pname p <> [] \/ pctx p <> [] ->
  nth_error ts i = Some t ->
  exists r, nth_error (snd (run m ts s0)) i = Some (Some r) /\ r <> NotMatching /\
    (r = Matching <-> t <> [] /\ (pname p = [] \/ textOf LongName ShortName t (pname p)) /\
                      (pctx p = [] \/ exists c, textOf LongCtx ShortCtx t c /\ substring c (pctx p))).
Proof.
  intros m s1 p s0 ts i t Hs Hc R A1 A2 N Hi.
  rewrite (run_first m ts s0 (singleState m p)) by (apply (verify_single m s1); assumption).
  rewrite (run_single m p ts (singleState m p)) by (repeat split). rewrite (map_nth_error _ i ts Hi).
  eexists. split; [reflexivity|]. rewrite <- singleMatch_iff. pose proof (isNil_iff t). destruct (isNil t), (singleMatch p t); cbn [negb andb]; (split; [discriminate|]); split; try discriminate; intros; intuition congruence.
Qed.
Print Assumptions C36_single_partial.

Theorem C36_single_name_only : forall m s1 p s0 ts i t,
  sfilter s0 <> Some m -> content m s1 -> rendered p s1 -> clean (pname p) -> pctx p = [] -> pname p <> [] ->
  nth_error ts i = Some t -> t <> [] ->
  nth_error (snd (run m ts s0)) i = Some (Some Matching) /\ satisfies p t \/
  nth_error (snd (run m ts s0)) i = Some (Some Ignore) /\ ~ satisfies p t.
Proof.
  intros m s1 p s0 ts i t Hs Hc R A1 A2 N Hi Ht.
  assert (C : clean (pctx p)) by (rewrite A2; repeat split; cbn; try tauto; [discriminate|]; intros c [|]; discriminate).
  destruct (C36_single_partial m s1 p s0 ts i t Hs Hc R A1 C (or_introl N) Hi) as (r & Hr & Hn & Hm).
  assert (Q : satisfies p t <-> r = Matching) by (rewrite Hm; unfold satisfies; tauto).
  destruct r; [left|contradiction|right]; (split; [exact Hr|]); [apply Q; reflexivity|intros X; apply Q in X; discriminate].
Qed.
Print Assumptions C36_single_name_only.

(** Counterexamples to the full statement: a tag without a context matches every context filter, and a tag whose context
    contains the wanted text does not match. *)
Definition alarm : part := {| pname := $"alarm"; pctx := $"room"; pnameEnds := false; pctxEnds := false |}.
Theorem C36_single_context_refuted :
  (let t := [(LongName, Some $"alarm")] in snd (filter $"alarm/room" t fresh) = Some Matching /\ ~ satisfies alarm t) /\
  (let t := [(LongName, Some $"alarm"); (LongCtx, Some $"room1")] in snd (filter $"alarm/room" t fresh) = Some Ignore /\ satisfies alarm t).
Proof.
  split; (split; [vm_compute; reflexivity|]); [intros H; apply satb_iff in H; vm_compute in H; discriminate|apply satb_iff; vm_compute; reflexivity].
Qed.
Print Assumptions C36_single_context_refuted.

(** Texts that name no side: the empty text matches nothing, an empty pair of brackets or a bare comma everything. *)
Theorem C36_no_sides : forall t s0, t <> [] ->
  (sfilter s0 <> Some [] -> snd (filter [] t s0) = Some Ignore) /\
  (forall m, m = $"[]" \/ m = $"," \/ m = $"[,]" -> sfilter s0 <> Some m -> snd (filter m t s0) = Some Matching).
Proof.
  intros t s0 Ht. assert (N : isNil t = false) by (destruct t; [contradiction|reflexivity]). split.
  - intros H. unfold filter, verify. rewrite verify_new by exact H. reflexivity.
  - intros m M H. unfold filter, verify. rewrite verify_new by exact H. destruct M as [ -> | [ -> | -> ] ]; cbn; rewrite N; reflexivity.
Qed.
Print Assumptions C36_no_sides.

(** A concrete pair meeting the hypotheses. *)
Definition open1 : part := {| pname := $"beam-in"; pctx := $"ring"; pnameEnds := false; pctxEnds := false |}.
Definition close1 : part := {| pname := $"beam-out"; pctx := []; pnameEnds := true; pctxEnds := false |}.
Lemma cleanb s : (forallb (fun c => negb (existsb (Ascii.eqb c) ["/"; ","; "["; "]"]%char)) s && negb (starts_with s [CARET]) && negb (isSpace (hd "x"%char s)) && negb (isSpace (last s "x"%char)))%bool = true -> clean s.
Proof.
  rewrite !andb_true_iff, !negb_true_iff, forallb_forall. intros [[[F K] H] L].
  assert (NI : forall d, In d ["/"; ","; "["; "]"]%char -> ~ In d s).
  { intros d Hd Hs. apply F in Hs. apply negb_true_iff in Hs. assert (X : existsb (Ascii.eqb d) ["/"; ","; "["; "]"]%char = true) by (apply existsb_exists; exists d; split; [exact Hd|apply Ascii.eqb_refl]). congruence. }
  repeat split; try (apply NI; cbn; tauto).
  - exact K.
  - intros c r ->. exact H.
  - intros c r ->. rewrite last_last in L. exact L.
Qed.
Example C36_pair_case :
  let m := $"[beam-in / ring, ^beam-out]" in
  let tag n c := [(LongName, Some n); (ShortCtx, Some c)] in
  snd (run m [tag $"beam-in" $"ring 4"; tag $"x" []; tag $"beam-out" []; tag $"beam-out" []; tag $"y" []; tag $"beam-out" []] fresh)
    = map Some [Matching; Ignore; Ignore; Ignore; NotMatching; Ignore] /\
  (exists s1 s2, content m (s1 ++ RANGE_OP :: s2) /\ rendered open1 s1 /\ rendered close1 s2) /\
  clean (pname open1) /\ clean (pctx open1) /\ clean (pname close1) /\ clean (pctx close1) /\
  ~ (pname open1 = pname close1 /\ pctx open1 = pctx close1).
Proof.
  split; [vm_compute; reflexivity|]. split.
  - exists $"beam-in / ring", $" ^beam-out". split; [left; reflexivity|]. assert (B : blank [" "%char]) by (intros c [<-|[]]; reflexivity). assert (B0 : blank []) by (intros c []). split.
    + exact (rendered_full open1 [] [] [" "%char] [" "%char] [] [] B0 B0 B B B0 B0).
    + exact (rendered_name close1 [" "%char] [] [] B B0 B0 eq_refl eq_refl).
  - split; [apply cleanb; reflexivity|]. split; [apply cleanb; reflexivity|]. split; [apply cleanb; reflexivity|]. split; [apply cleanb; reflexivity|]. intros [H _]. discriminate.
Qed.
Example C36_single_case :
  let p := {| pname := $"beam-in"; pctx := []; pnameEnds := false; pctxEnds := false |} in
  content $"beam-in" $"beam-in" /\ rendered p $"beam-in" /\ clean (pname p) /\
  snd (run $"beam-in" [[(ShortName, Some $"beam-in")]; [(LongName, Some $"x"); (ShortName, Some $"beam-in")]] fresh) = [Some Matching; Some Ignore].
Proof.
  cbn zeta. assert (B0 : blank []) by (intros c []). split; [right; split; [intros [x H]; discriminate|split; [|reflexivity]]|].
  - intros [x H]. assert (X : last (x ++ ["]"%char]) "x"%char = "]"%char) by apply last_last. rewrite <- H in X. discriminate.
  - split; [exact (rendered_name {| pname := $"beam-in"; pctx := []; pnameEnds := false; pctxEnds := false |} [] [] [] B0 B0 B0 eq_refl eq_refl)|].
    split; [apply cleanb; reflexivity|vm_compute; reflexivity].
Qed.

(** ** C37: malformed filters.  Partial: the first call with a filter throws exactly for the malformed texts (unbalanced
    brackets, or a side with two separators); later calls with the same text do not. *)
Theorem C37_first_call_partial : forall m t s, sfilter s <> Some m -> (snd (filter m t s) = None <-> malformed m).
Proof.
  intros m t s H. rewrite <- (verify_thrown m s H). unfold filter. destruct (verify m s) as [s' b]. cbn [snd]. destruct b; [cbn; tauto|].
  split; [|discriminate]. intros X. exfalso. revert X. cbv zeta. repeat match goal with |- context [if ?x then _ else _] => destruct x end; discriminate.
Qed.
Print Assumptions C37_first_call_partial.

(** After the throw, the same text is accepted silently, whatever it was. *)
Theorem C37_repeat_refuted : forall m t t' s, malformed m -> sfilter s <> Some m ->
  snd (filter m t s) = None /\ snd (filter m t' (fst (filter m t s))) <> None.
Proof.
  intros m t t' s M H. split; [apply C37_first_call_partial; assumption|].
  assert (F : sfilter (fst (filter m t s)) = Some m).
  { destruct (verify m s) as [z b] eqn:E. pose proof (verify_filter m s z b E) as F. rewrite (filter_first m t s z b E). destruct b; [exact F|apply filter_keeps; exact F]. }
  generalize dependent (fst (filter m t s)). intros z F. unfold filter. rewrite verify_known by exact F. cbv zeta.
  repeat match goal with |- context [if ?x then _ else _] => destruct x end; discriminate.
Qed.
Print Assumptions C37_repeat_refuted.

(** Worse than ignored: with a valid first side, the second call acts as that side alone. *)
Example C37_case :
  malformed $"a/b, c/d/e" /\ malformed $"[a" /\
  let t := [(LongName, Some $"a"); (LongCtx, Some $"b")] in
  let s := fst (filter $"a/b, c/d/e" t fresh) in
  snd (filter $"a/b, c/d/e" t fresh) = None /\ snd (filter $"a/b, c/d/e" t s) = Some Matching.
Proof.
  split; [|split; [|vm_compute; auto]].
  - right. right. exists $"a/b, c/d/e", $" c/d/e", $" c", $"d", $"e".
    split; [right; split; [intros [x H]; discriminate|split; [|reflexivity]]|].
    + intros [x H]. assert (X : last (x ++ ["]"%char]) "x"%char = "]"%char) by apply last_last. rewrite <- H in X. discriminate.
    + split; [|reflexivity]. right. exists $"a/b", $" c/d/e". split; [reflexivity|]. split; [|right; reflexivity]. cbn. intuition discriminate.
  - left. split; [exists $"a"; reflexivity|]. intros [x H]. assert (X : last (x ++ ["]"%char]) "x"%char = "]"%char) by apply last_last. rewrite <- H in X. discriminate.
Qed.
