(* C211-C214: lines of GPS receivers. *)

From Coq Require Import Ascii String ZArith NArith Bool Lia List.
From Verif Require Import NmeaModel NmeaSpec NmeaProofs.
Import ListNotations.

Local Open Scope char_scope.
Local Open Scope nat_scope.

(* C211.  Which lines are accepted: without a star, with a right checksum, or
   with one digit that is the checksum and something else. *)
Theorem C211_accepted : forall line, validate line = true <->
  (exists p, line = "$" :: p /\ 3 <= List.length p /\ ~ In "*" p) \/ checked line \/
  (exists p h x a, line = "$" :: p ++ ["*"; h; x] /\ x <> "*" /\ hexDigit h = Some a /\ hexDigit x = None /\ xorAll p = a).
Proof.
  intros line; split.
  - intros H. destruct (in_dec ascii_dec "*" line) as [Hin | Hn].
    + destruct (validate_inv line H Hin) as (p & h1 & h2 & -> & N1 & N2). right.
      rewrite validate_form in H by assumption. cbn [fromHex] in H.
      destruct (hexDigit h1) as [a|] eqn:E1; [|discriminate].
      destruct (hexDigit h2) as [b|] eqn:E2; apply N.eqb_eq in H.
      * left. exists p, h1, h2, a, b. repeat split; assumption.
      * right. exists p, h1, h2, a. repeat split; assumption.
    + left. assert (R := proj2 (rfind_none "*" line) Hn). unfold validate in H. rewrite R in H.
      destruct line as [|c p]; [discriminate|]. destruct (ascii_dec c "$") as [-> | D].
      * exists p. split; [reflexivity|]. destruct (List.length ("$" :: p) <? 4) eqn:L; [discriminate|].
        apply Nat.ltb_ge in L. cbn [List.length] in L. split; [lia|]. intros Hc. apply Hn. right. exact Hc.
      * exfalso. clear - H D. destruct c as [[] [] [] [] [] [] [] []]; try discriminate H; apply D; reflexivity.
  - intros [(p & -> & L & Hn) | [(p & h1 & h2 & a & b & -> & E1 & E2 & X) | (p & h & x & a & -> & Nx & E1 & E2 & X)]].
    + unfold validate. replace (List.length ("$" :: p) <? 4) with false
        by (symmetry; apply Nat.ltb_ge; cbn [List.length]; lia).
      replace (rfind "*" ("$" :: p)) with (@None nat); [reflexivity|].
      symmetry. apply rfind_none. intros [H | H]; [discriminate|exact (Hn H)].
    + rewrite validate_form by (eapply hex_not_star; eassumption). cbn [fromHex]. rewrite E1, E2, X. apply N.eqb_refl.
    + rewrite validate_form; [|eapply hex_not_star; eassumption|exact Nx]. cbn [fromHex]. rewrite E1, E2, X. apply N.eqb_refl.
Qed.
Print Assumptions C211_accepted.

(* The characters that count as digits of a checksum, and what they count. *)
Theorem C211_hex_digits : forall c n, hexDigit c = Some n <->
  nth_error upperDigits (N.to_nat n) = Some c \/ nth_error lowerDigits (N.to_nat n) = Some c.
Proof.
  intros c n; split; [apply hex_some|]. intros [H | H]; [apply hex_upper in H|apply hex_lower in H]; rewrite N2Nat.id in H; exact H.
Qed.
Print Assumptions C211_hex_digits.
Example C211_hex_digits_case : nth_error upperDigits 11 = Some "B" /\ nth_error lowerDigits 15 = Some "f".
Proof. split; reflexivity. Qed.

(* A line with one wrong byte between $ and the star changes nothing. *)
Theorem C211_wrong_byte : forall conv s t a b x y h1 h2,
  checked ("$" :: (a ++ x :: b) ++ ["*"; h1; h2]) -> x <> y ->
  parseLine conv s ("$" :: (a ++ y :: b) ++ ["*"; h1; h2]) t = (s, None).
Proof.
  intros conv s t a b x y h1 h2 (p & g1 & g2 & u & v & E & G1 & G2 & X) Hxy.
  assert (I : forall (l1 l2 : text) z1 z2 z3 w1 w2 w3, l1 ++ [z1; z2; z3] = l2 ++ [w1; w2; w3] -> l1 = l2 /\ z2 = w2 /\ z3 = w3).
  { clear. intros l1 l2 z1 z2 z3 w1 w2 w3 H.
    change [z1; z2; z3] with ([z1; z2] ++ [z3]) in H. change [w1; w2; w3] with ([w1; w2] ++ [w3]) in H.
    rewrite !app_assoc in H. apply app_inj_tail in H. destruct H as [H ->].
    change [z1; z2] with ([z1] ++ [z2]) in H. change [w1; w2] with ([w1] ++ [w2]) in H.
    rewrite !app_assoc in H. apply app_inj_tail in H. destruct H as [H ->].
    apply app_inj_tail in H. destruct H as [H _]. repeat split. exact H. }
  assert (E' : (a ++ x :: b) ++ ["*"; h1; h2] = p ++ ["*"; g1; g2]) by congruence.
  apply I in E'. destruct E' as (<- & -> & ->).
  assert (V : validate ("$" :: (a ++ y :: b) ++ ["*"; g1; g2]) = false).
  { rewrite validate_form by (eapply hex_not_star; eassumption). cbn [fromHex]. rewrite G1, G2.
    apply N.eqb_neq. rewrite <- X. intros H. apply xor_one in H. congruence. }
  unfold parseLine, readLine.
  replace (chomp ("$" :: (a ++ y :: b) ++ ["*"; g1; g2])) with ("$" :: (a ++ y :: b) ++ ["*"; g1; g2]).
  - rewrite V. reflexivity.
  - unfold chomp. change ("$" :: (a ++ y :: b) ++ ["*"; g1; g2]) with (("$" :: (a ++ y :: b)) ++ ["*"; g1] ++ [g2]).
    rewrite app_assoc, rev_app_distr. cbn [rev app].
    destruct (Ascii.eqb_spec g2 (ascii_of_nat 13)) as [C | C]; [exfalso; rewrite C in G2; discriminate G2|reflexivity].
Qed.
Print Assumptions C211_wrong_byte.

(* Refuted: a wrong star is not noticed. *)
Theorem C211_wrong_star_refuted : forall p h1 h2 y,
  checked ("$" :: p ++ ["*"; h1; h2]) -> ~ In "*" p -> y <> "*" ->
  validate ("$" :: p ++ [y; h1; h2]) = true.
Proof.
  intros p h1 h2 y (q & g1 & g2 & u & v & E & G1 & G2 & X) Hp Hy. apply C211_accepted. left.
  exists (p ++ [y; h1; h2])%list. split; [reflexivity|]. split; [rewrite app_length; cbn [List.length]; lia|].
  assert (E' : p ++ ["*"; h1; h2] = q ++ ["*"; g1; g2]) by congruence.
  change ["*"; h1; h2] with (["*"; h1] ++ [h2]) in E'. change ["*"; g1; g2] with (["*"; g1] ++ [g2]) in E'.
  rewrite !app_assoc in E'. apply app_inj_tail in E'. destruct E' as [E' ->].
  change ["*"; h1] with (["*"] ++ [h1]) in E'. change ["*"; g1] with (["*"] ++ [g1]) in E'.
  rewrite !app_assoc in E'. apply app_inj_tail in E'. destruct E' as [_ ->].
  intros H. apply in_app_or in H. destruct H as [H | [H | [H | [H | []]]]].
  - exact (Hp H).
  - exact (Hy H).
  - exact (hex_not_star _ _ G1 H).
  - exact (hex_not_star _ _ G2 H).
Qed.
Print Assumptions C211_wrong_star_refuted.

(* Refuted: nor is a wrong second digit if the checksum is below 16 and
   written without the leading zero. *)
Theorem C211_second_digit_refuted : forall p h x a,
  hexDigit h = Some a -> hexDigit x = None -> x <> "*" -> xorAll p = a ->
  validate ("$" :: p ++ ["*"; h; x]) = true /\ ~ checked ("$" :: p ++ ["*"; h; x]).
Proof.
  intros p h x a Hh Hx Nx Xa. split.
  - apply C211_accepted. right; right. exists p, h, x, a. repeat split; assumption.
  - intros (q & g1 & g2 & u & v & E & _ & G2 & _).
    assert (E' : (p ++ ["*"; h]) ++ [x] = (q ++ ["*"; g1]) ++ [g2]) by (rewrite <- !app_assoc; cbn [app]; congruence).
    apply app_inj_tail in E'. destruct E' as [_ ->]. congruence.
Qed.
Print Assumptions C211_second_digit_refuted.

(* C212.  The fields are the texts between the commas, and only these. *)
Theorem C212_fields : forall line fs, split line = fs <->
  fs <> [] /\ join fs = line /\ (forall f, In f fs -> ~ In "," f).
Proof.
  intros line fs; split.
  - intros <-. split; [apply split_nonempty|]. split; [apply join_split|]. intros f. apply split_no_comma.
  - intros (H1 & <- & H3). apply split_join; assumption.
Qed.
Print Assumptions C212_fields.

(* C213.  A fix is handed over at a sentence whose second differs from that of
   the last sentence with a time, and at no other. *)
Theorem C213_when : forall conv d ls line t,
  (exists f, snd (parseLine conv (feed conv (init d) ls) line t) = Some f) <->
  (exists m n, lastSecond ls = Some m /\ (0 <= m)%Z /\ secondOf line = Some n /\ n <> m).
Proof.
  intros conv d ls line t. rewrite <- (due_feed conv d ls line), line_step. cbn [snd].
  destruct (due (feed conv (init d) ls) line); split.
  - reflexivity.
  - intros _. eexists. reflexivity.
  - intros (f & H). discriminate.
  - discriminate.
Qed.
Print Assumptions C213_when.

(* It depends on the lines since the last change of the second only, and on
   the date known before these. *)
Theorem C213_content : forall conv d ls line t f,
  (forall l u m, In (l, u) ls -> secondOf l = Some m -> (0 <= m)%Z) ->
  snd (parseLine conv (feed conv (init d) ls) line t) = Some f ->
  exists pre seg m, ls = pre ++ seg /\ lastSecond ls = Some m /\ sameSecond m seg /\
    (pre = [] \/ exists l u r q n, seg = (l, u) :: r /\ secondOf l = Some n /\ lastSecond pre = Some q /\ n <> q) /\
    snd (parseLine conv (feed conv (init (date (feed conv (init d) pre))) seg) line t) = Some f /\ localT f = t.
Proof.
  intros conv d ls line t f Hpos H.
  destruct (cut_exists conv d ls Hpos) as (pre & seg & E & Ep & Es & Ed & Hs & Hno & Hpre).
  rewrite line_step in H; cbn [snd] in H.
  destruct (due (feed conv (init d) ls) line) eqn:D; [|discriminate].
  assert (D' := D). apply due_feed in D'. destruct D' as (m & n & Hm & _).
  exists pre, seg, m. split; [exact E|]. split; [exact Hm|]. split; [exact (Hs m Hm)|]. split; [exact Hpre|].
  rewrite line_step; cbn [snd].
  replace (due (feed conv (init (date (feed conv (init d) pre))) seg) line) with true
    by (symmetry; unfold due in *; rewrite <- Es; exact D).
  rewrite <- Ep. split; [exact H|].
  assert (f = stamp (pend (feed conv (init d) ls)) t) as -> by congruence. reflexivity.
Qed.
Print Assumptions C213_content.

Definition txt (s : string) : text := list_ascii_of_string s.

(* Refuted: a change of the minute or hour with the same second hands over nothing. *)
Theorem C213_same_second_refuted : forall conv t u,
  let l1 := txt "$GPRMC,120001,A,4916.45,N,12311.12,W,000.5,054.7,191124,020.3,E" in
  let l2 := txt "$GPRMC,130101,A,4916.45,N,12311.12,W,000.5,054.7,191124,020.3,E" in
  secondOf l1 = Some 1%Z /\ secondOf l2 = Some 1%Z /\
  snd (parseLine conv (feed conv (init []) [(l1, t)]) l2 u) = None.
Proof. intros conv t u; cbv zeta; repeat split; vm_compute; reflexivity. Qed.
Print Assumptions C213_same_second_refuted.

(* C214.  A fix has a position iff one of its sentences has one. *)
Theorem C214_position : forall conv d ls line t f m, sameSecond m ls ->
  snd (parseLine conv (feed conv (init d) ls) line t) = Some f ->
  (hasPos f = true <-> exists l u, In (l, u) ls /\ positioned l).
Proof.
  intros conv d ls line t f m Hs H. rewrite line_step in H; cbn [snd] in H.
  destruct (due (feed conv (init d) ls) line); [|discriminate].
  assert (f = stamp (pend (feed conv (init d) ls)) t) as -> by congruence.
  cbn [stamp hasPos]. apply (feed_pos conv d ls m Hs).
Qed.
Print Assumptions C214_position.

(* Refuted: a fix with a time may have the time 0, whatever the conversion. *)
Theorem C214_time_refuted : forall conv, exists ls line t f,
  snd (parseLine conv (feed conv (init []) ls) line t) = Some f /\ hasTime f = true /\ utc f = 0%Z.
Proof.
  intros conv.
  exists [(txt "$GPRMC,120001,A,4916.45,N,12311.12,W,000.5,054.7,191124,020.3,E", 1%Z);
          (txt "$GPRMC,,A,4916.45,N,12311.12,W,000.5,054.7,191124,020.3,E", 2%Z)],
         (txt "$GPRMC,120002,A,4916.45,N,12311.12,W,000.5,054.7,191124,020.3,E"), 3%Z.
  eexists. split; [vm_compute; reflexivity|]. split; reflexivity.
Qed.
Print Assumptions C214_time_refuted.

(* Refuted: a valid sentence without date does not get the date known, though one
   that says it is not valid does. *)
Theorem C214_date_refuted : forall conv,
  let l1 := txt "$GPRMC,120001,A,4916.45,N,12311.12,W,000.5,054.7,191124,020.3,E" in
  let va := txt "$GPRMC,120002,A,4916.45,N,12311.12,W,000.5,054.7,,020.3,E" in
  let vo := txt "$GPRMC,120002,V,4916.45,N,12311.12,W,000.5,054.7,,020.3,E" in
  date (feed conv (init []) [(l1, 1%Z); (va, 2%Z)]) = txt "191124" /\
  utc (pend (feed conv (init []) [(l1, 1%Z); (va, 2%Z)])) = conv (txt "120002") [] /\
  utc (pend (feed conv (init []) [(l1, 1%Z); (vo, 2%Z)])) = conv (txt "120002") (txt "191124").
Proof. intros conv; cbv zeta; repeat split; vm_compute; reflexivity. Qed.
Print Assumptions C214_date_refuted.

(* Cases that meet the hypotheses. *)
Definition rmc : text := txt "$GPRMC,225446,A,4916.45,N,12311.12,W,000.5,054.7,191194,020.3,E*68".

Example C211_case : checked rmc /\ validate rmc = true /\ readLine rmc <> None /\
  validate (txt "$GPRMC,225447,A,4916.45,N,12311.12,W,000.5,054.7,191194,020.3,E*68") = false /\
  validate (txt "$GPRMC,225447,A,4916.45,N,12311.12,W,000.5,054.7,191194,020.3,E068") = true.
Proof.
  split.
  - exists (txt "GPRMC,225446,A,4916.45,N,12311.12,W,000.5,054.7,191194,020.3,E"), "6", "8", 6%N, 8%N.
    repeat split; vm_compute; reflexivity.
  - repeat split; vm_compute; try reflexivity. discriminate.
Qed.
(* The exclusive or of "AE" is 4. *)
Example C211_digit_case : xorAll (txt "AE") = 4%N /\ validate (txt "$AE*4z") = true /\ validate (txt "$AE*04") = true /\
  validate (txt "$AE*40") = false.
Proof. repeat split; vm_compute; reflexivity. Qed.
Example C212_case : split (txt "a,,bc") = [txt "a"; []; txt "bc"].
Proof. reflexivity. Qed.

Definition gga (t : string) : text := txt ("$GPGGA," ++ t ++ ",4807.038,N,01131.000,E,1,08,0.9,545.4,M,46.9,M,,").
Definition vtg : text := txt "$GPVTG,054.7,T,034.4,M,005.5,N,010.2,K".
Example C213_case : forall conv,
  let ls := [(rmc, 1%Z); (gga "225447", 2%Z); (vtg, 3%Z)] in
  lastSecond ls = Some 47%Z /\ secondOf (gga "225448") = Some 48%Z /\
  (forall l u m, In (l, u) ls -> secondOf l = Some m -> (0 <= m)%Z) /\
  positioned (gga "225447") /\ ~ positioned vtg /\
  option_map (fun f => (utc f, localT f, heading f, hasPos f)) (snd (parseLine conv (feed conv (init []) ls) (gga "225448") 9%Z)) =
    Some (conv (txt "225447") (txt "191194"), 9%Z, txt "054.7", true).
Proof.
  intros conv; cbv zeta. split; [vm_compute; reflexivity|]. split; [vm_compute; reflexivity|].
  split.
  { intros l u m [H | [H | [H | []]]] Hm.
    - assert (l = rmc) by congruence; subst l. vm_compute in Hm. assert (m = 46%Z) by congruence. lia.
    - assert (l = gga "225447") by congruence; subst l. vm_compute in Hm. assert (m = 47%Z) by congruence. lia.
    - assert (l = vtg) by congruence; subst l. vm_compute in Hm. discriminate. }
  split.
  { exists (split (gga "225447")). right. split; [vm_compute; reflexivity|]. split; [vm_compute; lia|]. vm_compute. reflexivity. }
  split.
  { intros (f & [(H & _) | (H & _)]); vm_compute in H; discriminate. }
  vm_compute. reflexivity.
Qed.

(* Numbers in fields are read as they are written. *)
Theorem C213_numbers : forall ds, ds <> [] -> (forall d, In d ds -> d < 10) -> (valueOf ds < 2 ^ 31)%Z ->
  parseInt (written10 ds) = valueOf ds /\ parseInt ("-" :: written10 ds) = (- valueOf ds)%Z.
Proof.
  intros ds Hn H B. assert (V := valueOf_nonneg ds).
  assert (D : digits 0 (written10 ds) = valueOf ds) by (rewrite digits_value by exact H; lia).
  split.
  - assert (E : parseInt (written10 ds) = inInt (digits 0 (written10 ds))).
    { destruct ds as [|d r]; [congruence|]. assert (L := H d (or_introl eq_refl)). cbn [written10 map].
      clear - L. do 10 (destruct d as [|d]; [reflexivity|]). lia. }
    rewrite E, D. unfold inInt.
    replace ((- 2 ^ 31 <=? valueOf ds)%Z && (valueOf ds <? 2 ^ 31)%Z) with true; [reflexivity|].
    symmetry. apply andb_true_iff. split; [apply Z.leb_le|apply Z.ltb_lt]; lia.
  - unfold parseInt. rewrite D. unfold inInt.
    replace ((- 2 ^ 31 <=? - valueOf ds)%Z && (- valueOf ds <? 2 ^ 31)%Z) with true; [reflexivity|].
    symmetry. apply andb_true_iff. split; [apply Z.leb_le|apply Z.ltb_lt]; lia.
Qed.
Print Assumptions C213_numbers.
Example C213_numbers_case : written10 [4; 7] = ["4"; "7"] /\ valueOf [4; 7] = 47%Z.
Proof. split; reflexivity. Qed.

(* The checksum is not part of the last field. *)
Theorem C212_checksum_cut : forall p h1 h2 k f, h1 <> "*" -> h2 <> "*" -> h2 <> ascii_of_nat 13 ->
  readLine ("$" :: p ++ ["*"; h1; h2]) = Some (k, f) -> join f = "$" :: p.
Proof.
  intros p h1 h2 k f N1 N2 N3 H. unfold readLine in H.
  assert (C : chomp ("$" :: p ++ ["*"; h1; h2]) = "$" :: p ++ ["*"; h1; h2]).
  { unfold chomp. change ("$" :: p ++ ["*"; h1; h2]) with (("$" :: p) ++ ["*"; h1] ++ [h2]).
    rewrite app_assoc, rev_app_distr. cbn [rev app].
    destruct (Ascii.eqb_spec h2 (ascii_of_nat 13)) as [X | X]; [contradiction|reflexivity]. }
  rewrite C in H. destruct (validate ("$" :: p ++ ["*"; h1; h2])); [|discriminate].
  assert (R : rfind "*" ("$" :: p ++ ["*"; h1; h2]) = Some (S (List.length p))).
  { change ("$" :: p ++ ["*"; h1; h2]) with (("$" :: p) ++ "*" :: [h1; h2]).
    rewrite rfind_app; [reflexivity|]. intros [X | [X | []]]; congruence. }
  rewrite R in H. cbn [firstn] in H.
  rewrite firstn_app, firstn_all, Nat.sub_diag in H. cbn [firstn] in H. rewrite app_nil_r in H.
  destruct (kindOf (sentenceId ("$" :: p))) as [k'|]; [|discriminate].
  assert (E : f = split ("$" :: p)) by congruence. rewrite E. apply join_split.
Qed.
Print Assumptions C212_checksum_cut.

(* A carriage return at the end does not matter. *)
Theorem C212_carriage_return : forall conv s t p c, c <> ascii_of_nat 13 ->
  parseLine conv s ("$" :: p ++ [c; ascii_of_nat 13]) t = parseLine conv s ("$" :: p ++ [c]) t.
Proof.
  intros conv s t p c N. unfold parseLine, readLine.
  assert (C1 : chomp ("$" :: p ++ [c; ascii_of_nat 13]) = "$" :: p ++ [c]).
  { unfold chomp. change ("$" :: p ++ [c; ascii_of_nat 13]) with (("$" :: p) ++ [c] ++ [ascii_of_nat 13]).
    rewrite app_assoc, rev_app_distr. change (rev [ascii_of_nat 13]) with [ascii_of_nat 13]. cbn [app]. rewrite Ascii.eqb_refl, rev_involutive. reflexivity. }
  assert (C2 : chomp ("$" :: p ++ [c]) = "$" :: p ++ [c]).
  { unfold chomp. change ("$" :: p ++ [c]) with (("$" :: p) ++ [c]).
    rewrite rev_app_distr. cbn [rev app]. destruct (Ascii.eqb_spec c (ascii_of_nat 13)) as [X | X]; [contradiction|reflexivity]. }
  rewrite C1, C2. reflexivity.
Qed.
Print Assumptions C212_carriage_return.

Example C212_checksum_cut_case :
  readLine (list_ascii_of_string "$GPVTG,1,T,2,M,3,N,4,K*4A") =
  Some (VTG, map list_ascii_of_string ["$GPVTG"; "1"; "T"; "2"; "M"; "3"; "N"; "4"; "K"]%string).
Proof. vm_compute. reflexivity. Qed.

(* Where the position of a fix comes from: the fields of the sentence that has
   one; every other sentence of the same second leaves it. *)
Theorem C214_position_fields : forall conv s l t,
  let '(s', r) := parseLine conv s l t in
  (forall f, readLine l = Some (RMC, f) -> 12 <= List.length f -> nth 2 f [] = ["A"] ->
     lat (pend s') = (nth 3 f [], nth 4 f []) /\ lon (pend s') = (nth 5 f [], nth 6 f []) /\ hasPos (pend s') = true) /\
  (forall f, readLine l = Some (GGA, f) -> 15 <= List.length f -> (0 < parseInt (nth 6 f []))%Z ->
     lat (pend s') = (nth 2 f [], nth 3 f []) /\ lon (pend s') = (nth 4 f [], nth 5 f []) /\ hasPos (pend s') = true) /\
  (~ positioned l -> r = None ->
     lat (pend s') = lat (pend s) /\ lon (pend s') = lon (pend s) /\ hasPos (pend s') = hasPos (pend s)).
Proof.
  intros conv s l t. unfold parseLine. destruct (readLine l) as [[k f]|] eqn:RL.
  2: { split; [intros f H; discriminate|]. split; [intros f H; discriminate|]. auto. }
  unfold sentence. destruct (Nat.ltb_spec (List.length f) (needs k)) as [L | L].
  { split; [intros g H HL; assert (k = RMC /\ f = g) as [-> ->] by (split; congruence); cbn [needs] in L; lia|].
    split; [intros g H HL; assert (k = GGA /\ f = g) as [-> ->] by (split; congruence); cbn [needs] in L; lia|]. auto. }
  assert (B : forall tm, snd (boundary s tm t) = None -> pend (fst (boundary s tm t)) = pend s).
  { intros tm. unfold boundary. destruct (_ <? _); [reflexivity|]. destruct (_ && _); cbn [fst snd]; [discriminate|reflexivity]. }
  destruct k; cbn [needs] in L.
  - specialize (B (fld 1 f)). destruct (boundary s (fld 1 f) t) as [s1 r]; cbn [fst snd] in B. cbn [pend write].
    split; [|split].
    + intros g H _ HA. assert (f = g) by congruence. subst g. unfold fld in *. rewrite HA, (proj2 (teq_spec ["A"] ["A"]) eq_refl).
      cbn [lat lon hasPos]. auto.
    + intros g H. congruence.
    + intros NP Hr. destruct (teq (fld 2 f) ["A"]) eqn:E.
      * exfalso. apply NP. exists f. left. apply teq_spec in E. auto.
      * cbn [lat lon hasPos]. rewrite (B Hr). auto.
  - specialize (B (fld 1 f)). destruct (boundary s (fld 1 f) t) as [s1 r]; cbn [fst snd] in B. cbn [pend write].
    split; [intros g H; congruence|]. split.
    + intros g H _ HA. assert (f = g) by congruence. subst g. unfold fld in *.
      replace (0 <? parseInt (nth 6 f []))%Z with true by (symmetry; apply Z.ltb_lt; exact HA).
      cbn [hasTime]. destruct (_ && _); cbn [lat lon hasPos]; auto.
    + intros NP Hr. destruct (Z.ltb_spec 0 (parseInt (fld 6 f))) as [E | E].
      * exfalso. apply NP. exists f. right. auto.
      * destruct (_ && _); cbn [lat lon hasPos]; rewrite (B Hr); auto.
  - split; [intros g H; congruence|]. split; [intros g H; congruence|]. intros _ _. cbn [pend write lat lon hasPos]. auto.
  - split; [intros g H; congruence|]. split; [intros g H; congruence|]. intros _ _. cbn [pend write lat lon hasPos]. auto.
Qed.
Print Assumptions C214_position_fields.

(* A time once known in a second is not replaced by a GGA sentence; an RMC
   sentence without a valid position gives a time exactly if it has one. *)
Theorem C214_time_kept : forall conv s l t,
  let '(s', r) := parseLine conv s l t in
  (forall f, readLine l = Some (GGA, f) -> r = None -> hasTime (pend s) = true ->
     utc (pend s') = utc (pend s) /\ hasTime (pend s') = true) /\
  (forall f, readLine l = Some (RMC, f) -> 12 <= List.length f -> nth 2 f [] <> ["A"] ->
     (hasTime (pend s') = true <-> nth 1 f [] <> [])).
Proof.
  intros conv s l t. unfold parseLine. destruct (readLine l) as [[k f]|] eqn:RL.
  2: { split; intros f H; discriminate. }
  unfold sentence. destruct (Nat.ltb_spec (List.length f) (needs k)) as [L | L].
  { split; [auto|]. intros g H HL. assert (k = RMC /\ f = g) as [-> ->] by (split; congruence). cbn [needs] in L. lia. }
  assert (B : forall tm, snd (boundary s tm t) = None -> pend (fst (boundary s tm t)) = pend s).
  { intros tm. unfold boundary. destruct (_ <? _); [reflexivity|]. destruct (_ && _); cbn [fst snd]; [discriminate|reflexivity]. }
  destruct k; cbn [needs] in L.
  - destruct (boundary s (fld 1 f) t) as [s1 r]. cbn [pend write]. split; [intros g H; congruence|].
    intros g H _ HA. assert (f = g) by congruence. subst g. destruct (teq (fld 2 f) ["A"]) eqn:E.
    + exfalso. apply HA. apply teq_spec in E. exact E.
    + cbn [hasTime]. unfold fld. destruct (nth 1 f []); cbn [empty negb]; split; congruence.
  - specialize (B (fld 1 f)). destruct (boundary s (fld 1 f) t) as [s1 r]; cbn [fst snd] in B. cbn [pend write].
    split; [|intros g H; congruence]. intros g _ Hr HT. rewrite (B Hr).
    destruct (0 <? parseInt (fld 6 f))%Z; cbn [hasTime]; rewrite HT; cbn [negb andb utc hasTime]; auto.
  - split; intros g H; congruence.
  - split; intros g H; congruence.
Qed.
Print Assumptions C214_time_kept.

Example C214_fields_case :
  exists f, readLine (list_ascii_of_string "$GPGGA,1,2,N,3,E,1,,,,,,,,") = Some (GGA, f) /\ 15 <= List.length f /\ (0 < parseInt (nth 6 f []))%Z.
Proof. eexists. split; [vm_compute; reflexivity|]. split; [cbn; lia|reflexivity]. Qed.
