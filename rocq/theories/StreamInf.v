(** The streaming inflater against the whole-buffer decoder: what is left to decode does not change from step to step. *)
From Coq Require Import List NArith ZArith Arith Bool Lia ZifyBool ZifyNat ZifyN.
From Verif Require Import Base CompModel CompSpec CompBits CompHuff CompDec CompBlk CompWrap StreamModel StreamRd StreamOut.
Import ListNotations.
Local Open Scope N_scope.

(** * What a read that fails leaves *)
Lemma fill_short fuel w : forall r, fill fuel w r = None -> (w <= rcount r + 8 * fuel)%nat -> (rpos r <= length (rinput r))%nat -> (available r < w)%nat.
Proof.
  induction fuel as [|k IH]; intros r H Hw Hp; cbn [fill] in H; destruct (Nat.leb_spec w (rcount r)) as [Hc|Hc]; try discriminate; [lia|].
  destruct (nth_error (rinput r) (rpos r)) as [b|] eqn:E.
  - apply IH in H; cbn [rcount rpos rinput] in *; [|lia|]; assert (rpos r < length (rinput r))%nat by (apply nth_error_Some; congruence); [|lia].
    unfold available in *. cbn [rcount rpos rinput] in H. lia.
  - apply nth_error_None in E. unfold available. lia.
Qed.
Lemma read_short w r : readBits w r = Err truncatedInput -> (rpos r <= length (rinput r))%nat -> (available r < w)%nat.
Proof.
  unfold readBits. destruct (32 <? w)%nat; [discriminate|]. destruct (fill w w r) eqn:E; [discriminate|]. intros _ Hp. apply (fill_short w w r E); lia.
Qed.
Lemma next_short r : nextBit r = None -> (rpos r <= length (rinput r))%nat -> (available r < 1)%nat.
Proof. unfold nextBit. destruct (fill 1 1 r) eqn:E; [discriminate|]. intros _ Hp. apply (fill_short 1 1 r E); lia. Qed.
Lemma next_in r b r' : nextBit r = Some (b, r') -> (rpos r <= length (rinput r))%nat -> (rpos r' <= length (rinput r'))%nat.
Proof.
  unfold nextBit. assert (G : forall fuel w q q', fill fuel w q = Some q' -> (rpos q <= length (rinput q))%nat -> (rpos q' <= length (rinput q'))%nat).
  { induction fuel as [|k IH]; intros w q q' H Hp; cbn [fill] in H; destruct (Nat.leb_spec w (rcount q)); try discriminate; try (injection H as <-; exact Hp).
    destruct (nth_error (rinput q) (rpos q)) eqn:E; [|discriminate]. apply IH in H; [exact H|]. cbn [rpos rinput].
    assert (rpos q < length (rinput q))%nat by (apply nth_error_Some; congruence). lia. }
  destruct (fill 1 1 r) as [q|] eqn:E; [|discriminate]. intros H Hp. injection H as <- <-. cbn [rpos rinput]. apply (G _ _ _ _ E Hp).
Qed.
Lemma loop_short d : forall k w code first index r, (rpos r <= length (rinput r))%nat ->
  match decodeSymbolLoop k w code first index d r with
  | Ok (_, r') => (available r <= available r' + k)%nat
  | Err e => e = truncatedInput -> (available r < k)%nat
  | _ => True end.
Proof.
  induction k as [|k IH]; intros w code first index r Hp; cbn [decodeSymbolLoop]; [discriminate|].
  destruct (nextBit r) as [[b r']|] eqn:E; [|intros _; apply next_short in E; [lia|exact Hp]].
  pose proof (next_in _ _ _ E Hp) as Hp'. apply next_available in E. destruct E as [E _].
  destruct (aget (hcounts d) w) as [count| | |] eqn:Ec; cbn [bind]; try exact I; [|intros ->; unfold aget in Ec; destruct (nth_error (hcounts d) w); discriminate].
  destruct (_ && _).
  - destruct (aget (hsymbols d) _) eqn:Es; cbn [bind]; try exact I; [lia|]. intros ->. unfold aget in Es. destruct (nth_error (hsymbols d) _); discriminate.
  - specialize (IH (S w) (N.lor (N.shiftl code 1) b) (N.shiftl (first + N.of_nat count) 1) (index + count)%nat r' Hp').
    destruct (decodeSymbolLoop k (S w) _ _ _ d r') as [[s q]|e| |]; [lia|intros He; specialize (IH He); lia|exact I|exact I].
Qed.
Lemma count_max M : forall ls counts mw used c mw' u, countLengths M ls counts mw used = Ok (c, mw', u) -> (mw <= M)%nat -> (mw' <= M)%nat.
Proof.
  induction ls as [|l ls IH]; intros counts mw used c mw' u H Hm; cbn [countLengths] in H; [congruence|].
  destruct (Nat.ltb_spec M l); [discriminate|]. destruct (l =? 0)%nat; [eapply IH; eassumption|].
  destruct (aget counts l); cbn [bind] in H; try discriminate. destruct (aset counts l _); cbn [bind] in H; try discriminate. eapply IH; [exact H|lia].
Qed.
Lemma decoder_max n M lengths sc policy d : makeDecoder n M lengths sc policy = Ok d -> (hmax d <= M)%nat.
Proof.
  unfold makeDecoder. destruct (_ <? _)%nat; [discriminate|]. cbn zeta. destruct (countLengths M _ _ _ _) as [[[c mw] u]| | |] eqn:E; cbn [bind]; try discriminate.
  apply count_max in E; [|lia]. destruct (_ =? _)%nat; [destruct (allowEmpty policy); [|discriminate]; intros H; injection H as <-; exact E|].
  destruct (remainingSpace _ _ _); cbn [bind]; try discriminate. destruct (_ && _); [discriminate|]. destruct (placeSymbols _ _ _ _); cbn [bind]; try discriminate.
  intros H; injection H as <-; exact E.
Qed.
Lemma dynamic_max lens nl nd ld dd : dynamicDecoders lens nl nd = Ok (ld, dd) -> (hmax ld <= 15)%nat /\ (hmax dd <= 15)%nat.
Proof.
  unfold dynamicDecoders. destruct (_ <? _)%nat; [discriminate|]. cbn zeta. destruct (aget _ 256); cbn [bind]; try discriminate. destruct (_ =? _)%nat; [discriminate|].
  destruct (makeDecoder 288 15 _ nl defaultPolicy) eqn:E1; cbn [bind]; try discriminate. destruct (makeDecoder 32 15 _ nd distancePolicy) eqn:E2; cbn [bind]; try discriminate.
  intros H. injection H as <- <-. apply decoder_max in E1, E2. auto.
Qed.

(** * The reader *)
Lemma sread_ok inp cur org n fin w r g : rrel inp cur org n r g -> rok g -> (w <= 32)%nat ->
  match sread w fin r with
  | (r', SOk v) => exists g', readBits w g = Ok (v, g') /\ rrel inp cur org n r' g' /\ rok g' /\ rinput g' = rinput g /\ v < 2 ^ N.of_nat w /\ available r = (available r' + w)%nat
  | (r', SNeed) => r' = r /\ fin = false /\ (available r < w)%nat
  | (r', SErr e) => (fin = true -> reaches inp cur n) -> isErr (readBits w g)
  | (_, SBad) => False
  end.
Proof.
  intros Hr Hg Hw. unfold sread. pose proof (read_piece inp cur org n w r g Hr) as H. destruct (readBits w r) as [[v r']|e| |] eqn:E; try contradiction.
  - destruct H as (g' & Eg & H). exists g'. destruct (readBits_inv w g v g' Hg Hw Eg) as (H1 & H2 & _ & H4 & _). apply read_available in E. repeat (split; [assumption|]). tauto.
  - destruct H as [H|[-> H]]; [lia|]. destruct fin; [|split; [reflexivity|split; [reflexivity|apply (read_short _ _ E), Hr]]]. intros Hf. rewrite H by auto. apply err_intro.
Qed.
Lemma ssym_ok inp cur org n fin lens d r g : decOk lens d -> rrel inp cur org n r g -> rok g ->
  match ssymbol d fin r with
  | (r', SOk s) => exists g', decodeSymbol d g = Ok (s, g') /\ rrel inp cur org n r' g' /\ rok g' /\ rinput g' = rinput g /\ (available r' < available r)%nat /\ hasCode lens s /\ (available r <= available r' + hmax d)%nat
  | (r', SNeed) => r' = r /\ fin = false /\ (available r < hmax d)%nat
  | (r', SErr e) => (fin = true -> reaches inp cur n) -> isErr (decodeSymbol d g)
  | (_, SBad) => False
  end.
Proof.
  intros Hd Hr Hg. pose proof (loop_short d (hmax d) 1 0 0 0 r ltac:(apply Hr)) as Hsh. fold (decodeSymbol d r) in Hsh. unfold ssymbol. pose proof (sym_piece inp cur org n d r g Hr) as H. pose proof (sym_sound lens d g Hd Hg) as Hs.
  destruct (decodeSymbol d r) as [[s r']|e| |] eqn:E; cbn [symPiece] in H.
  - destruct H as (g' & Eg & H). exists g'. rewrite Eg in Hs. destruct Hs as [H1 (H2 & _ & H3 & _)]. apply sym_available in E. repeat (split; [assumption|]). tauto.
  - destruct H as [[-> H]|[-> H]].
    + destruct fin; [|split; [reflexivity|split; [reflexivity|apply Hsh; reflexivity]]]. intros Hf. rewrite H by auto. apply err_intro.
    + intros _. rewrite H. apply err_intro.
  - rewrite H in Hs. contradiction.
  - contradiction.
Qed.
Lemma sextra_ok inp cur org n fin b w r g : rrel inp cur org n r g -> rok g -> (w <= 32)%nat ->
  match sextra b w fin r with
  | (r', SOk v) => exists g', readExtra b w g = Ok (v, g') /\ rrel inp cur org n r' g' /\ rok g' /\ rinput g' = rinput g /\ b <= v < b + 2 ^ N.of_nat w /\ (available r' <= available r <= available r' + w)%nat
  | (r', SNeed) => fin = false /\ (available r < w)%nat
  | (r', SErr e) => (fin = true -> reaches inp cur n) -> isErr (readExtra b w g)
  | (_, SBad) => False
  end.
Proof.
  intros Hr Hg Hw. unfold sextra, readExtra. destruct (Nat.eqb_spec w 0) as [->|H0].
  - exists g. change (2 ^ N.of_nat 0) with 1. repeat (split; [first [assumption|reflexivity]|]). lia.
  - pose proof (sread_ok inp cur org n fin w r g Hr Hg Hw) as H. destruct (sread w fin r) as [r' [v| |e|]].
    + destruct H as (g' & E & H1 & H2 & H3 & H4 & H5). rewrite E. cbn [bind]. exists g'. repeat (split; [first [assumption|reflexivity]|]). lia.
    + apply H.
    + intros Hf. destruct (H Hf) as (e' & ->). apply err_intro.
    + exact H.
Qed.

(** * What is left to decode *)
Definition after (final : bool) (x : res (BitReader * Output)) : res (BitReader * Output) :=
  let* (r', o') := x in if final then Ok (r', o') else DB r' o'.
Definition storedRestW (w : nat) (g : BitReader) (o : Output) : res (BitReader * Output) :=
  let* (v, r) := readBits w g in
  if negb (0xffff - tr 16 v =? tr 16 (N.shiftr v 16)) then Err invalidStoredBlockLength else readStored (N.to_nat (tr 16 v)) r o.
Definition irest (i : Inflate) (g : BitReader) (o : Output) : res (BitReader * Output) :=
  if negb (ilen i =? 0) then
    match imode i with MCompressed ld dd => after (ifinal i) (let* o' := ocopy o (idist i) (ilen i) in DCB ld dd g o') | _ => Fault end
  else match imode i with
  | MHeader => DB g o
  | MStoredLength => after (ifinal i) (storedRestW 32 g o)
  | MStoredData k => after (ifinal i) (readStored (N.to_nat k) g o)
  | MDynamicHeader => after (ifinal i) (decodeDynamicBlock g o)
  | MCodeLengths nl nd nc idx cl => after (ifinal i) (afterCodeLengths nl nd o (readCodeLengths (seq idx (nc - idx)) cl g))
  | MLengths nl nd d idx lens => after (ifinal i) (afterLengths nl nd o (RL d (nl + nd) lens idx g))
  | MCompressed ld dd => after (ifinal i) (DCB ld dd g o)
  | MDone => Ok (g, o)
  end.
Definition ranges (nl nd : nat) : Prop := (257 <= nl <= 286)%nat /\ (1 <= nd <= 30)%nat.
Definition modeWf (m : Mode) (g : BitReader) : Prop :=
  match m with
  | MHeader | MDynamicHeader => True
  | MDone => False
  | MStoredLength => rcount g = 0%nat
  | MStoredData k => rcount g = 0%nat
  | MCodeLengths nl nd nc idx cl => ranges nl nd /\ (idx <= nc <= 19)%nat /\ length cl = 19%nat
  | MLengths nl nd d idx lens => ranges nl nd /\ (idx <= nl + nd)%nat /\ length lens = 320%nat /\ (hmax d <= 7)%nat /\ exists cl, decOk cl d /\ length cl = 19%nat
  | MCompressed ld dd => ((hmax ld <= 15)%nat /\ exists lens, decOk lens ld) /\ ((hmax dd <= 15)%nat /\ exists lens, decOk lens dd)
  end.
Definition iwf (i : Inflate) (g : BitReader) : Prop :=
  modeWf (imode i) g /\ (ilen i <> 0 -> (exists ld dd, imode i = MCompressed ld dd) /\ idist i <= kWindowSize).
Definition irank (i : Inflate) : nat :=
  if negb (ilen i =? 0)%N then 5%nat
  else match imode i with
  | MHeader => 1 | MStoredData k => if (k =? 0)%N then 2 else 0
  | MCodeLengths _ _ nc idx _ => if (idx <? nc)%nat then 0 else 4
  | MLengths nl nd _ idx _ => if (idx <? nl + nd)%nat then 0 else 3
  | _ => 0
  end%nat.
Lemma irank_le i : (irank i <= 5)%nat.
Proof. unfold irank. destruct (negb _); [lia|]. destruct (imode i); try lia; [destruct (_ =? _)|destruct (_ <? _)%nat|destruct (_ <? _)%nat]; lia. Qed.
Definition work (r : BitReader) (so : SOut) : nat := (available r + (scap so - length (sout so)))%nat.
Definition imeas (i : Inflate) (r : BitReader) (so : SOut) : nat := (64 * work r so + irank i)%nat.

Definition istepOk (inp : list N) (cur org n : nat) (fin : bool) (i : Inflate) (r : BitReader) (so : SOut) (p0 pre : list N) (g : BitReader) (o : Output) (x : IState) : Prop :=
  let '(i', r', so', p) := x in
  match p with
  | Advanced => exists g' o' m', rrel inp cur org n r' g' /\ rok g' /\ rinput g' = rinput g /\ sok p0 so' pre m' /\ orel so' o' pre m' /\ iwf i' g' /\
      eqv (irest i g o) (irest i' g' o') /\ (imeas i' r' so' < imeas i r so)%nat /\ scap so' = scap so /\ slimit so' = slimit so
  | Finished => exists g' g0, rrel inp cur org n r' g' /\ rok g' /\ rinput g' = rinput g /\ rcount g' = 0%nat /\ so' = so /\
      irest i g o = Ok (g0, o) /\ rpos (alignReader g0) = rpos g' /\ (available r' <= available r)%nat /\ (available r' = available r -> (0 < irank i)%nat)
  | NeedInput => i' = i /\ r' = r /\ so' = so /\ fin = false /\ (available r < 48)%nat
  | NeedOutput => i' = i /\ r' = r /\ so' = so /\ sfull so = true
  | Failed e => (fin = true -> reaches inp cur n) -> isErr (irest i g o)
  | Bad => False
  end.
Lemma after_err f x : isErr x -> isErr (after f x).
Proof. apply err_bind. Qed.
Lemma after_eqv f x y : eqv x y -> eqv (after f x) (after f y).
Proof. apply eqv_bind. Qed.
Lemma distance_le db de ds v : (ds < 30)%nat -> nth_error kDistanceBase ds = Some db -> nth_error kDistanceExtra ds = Some de -> db <= v < db + 2 ^ N.of_nat de -> 1 <= v <= kWindowSize.
Proof.
  intros Hd E1 E2 Hv. assert (E : forallb (fun i => match nth_error kDistanceBase i, nth_error kDistanceExtra i with
    | Some a, Some b => (1 <=? a) && (a + 2 ^ N.of_nat b <=? 32769) | _, _ => false end) (seq 0 30) = true) by (vm_compute; reflexivity).
  rewrite forallb_forall in E. specialize (E ds ltac:(apply in_seq; lia)). rewrite E1, E2 in E. apply andb_prop in E. destruct E as [Ea Eb].
  apply N.leb_le in Ea, Eb. unfold kWindowSize. lia.
Qed.

Section Step.
Variables (inp : list N) (cur org n : nat) (fin : bool) (i : Inflate) (r : BitReader) (so : SOut) (p0 pre m : list N) (g : BitReader) (o : Output).
Hypothesis Hrel : rrel inp cur org n r g.
Hypothesis Hok : rok g.
Hypothesis Hso : sok p0 so pre m.
Hypothesis Ho : orel so o pre m.
Hypothesis Hwf : iwf i g.
Let ok := istepOk inp cur org n fin i r so p0 pre g o.

Lemma copy_ok : ilen i <> 0 -> ok (stepCopy i r so).
Proof.
  intros Hl. destruct Hwf as [Hm Hp]. destruct (Hp Hl) as [(ld & dd & Em) Hd]. unfold ok, stepCopy.
  assert (Erest : irest i g o = after (ifinal i) (let* o' := ocopy o (idist i) (ilen i) in DCB ld dd g o')).
  { unfold irest. destruct (N.eqb_spec (ilen i) 0); [contradiction|]. cbn [negb]. rewrite Em. reflexivity. }
  pose proof (so_hist _ _ _ _ Hso) as (Hs1 & Hs2 & Hs3). destruct Ho as (Hr1 & Hr2 & Hr3). pose proof (rep_size o pre m Hr1) as _.
  destruct (N.eqb_spec (idist i) 0) as [E0|E0]; cbn [orb].
  { cbn [istepOk]. intros _. rewrite Erest. apply after_err, err_bind. eapply ocopy_bad; [exact Hr1|exact Hr2|lia]. }
  destruct (N.ltb_spec (shsize so) (idist i)) as [E1|E1].
  { cbn [istepOk]. intros _. rewrite Erest. apply after_err, err_bind. eapply ocopy_bad; [exact Hr1|exact Hr2|lia]. }
  destruct (sfull so) eqn:Ef; [cbn [istepOk]; auto|].
  assert (Hdm : 1 <= idist i <= bytesN m) by lia.
  rewrite (window_byte p0 so pre m) by (try assumption; lia). set (v := nth (length m - N.to_nat (idist i)) m 0).
  assert (Hv : v < 256).
  { assert (Hoct : octets m) by (pose proof (so_oct _ _ _ _ Hso) as H; apply octets_app in H; apply H).
    unfold v. destruct (nth_in_or_default (length m - N.to_nat (idist i)) m 0) as [Hi| ->]; [|reflexivity]. apply (proj1 (Forall_forall _ _) Hoct), Hi. }
  pose proof (ocopy_step o pre m (idist i) (ilen i) Hr1 Hr2 Hdm ltac:(lia)) as Hstep. fold v in Hstep.
  destruct (sappend_spec p0 so pre m v Hso Hv) as [(Hf & _)|[(_ & Hlim & E)|(_ & so' & E & Hso' & Hl' & Hc' & Hout & Hlt)]]; [congruence| |]; rewrite E.
  - cbn [istepOk]. intros _. rewrite Erest. apply after_err, err_bind. eapply eqv_err; [apply eqv_sym, Hstep|]. apply err_bind.
    eapply append_full; [exact (conj Hr1 (conj Hr2 Hr3))|apply (so_total _ _ _ _ Hso)|exact Hlim].
  - destruct (append_ok o so pre m v so' (conj Hr1 (conj Hr2 Hr3)) Hl' (so_total _ _ _ _ Hso) Hlt) as (o' & Ea & Ho').
    rewrite Ea in Hstep. cbn [bind] in Hstep. cbn [istepOk]. exists g, o', (m ++ [v]).
    split; [exact Hrel|]. split; [exact Hok|]. split; [reflexivity|]. split; [exact Hso'|]. split; [exact Ho'|]. split; [|split; [|split; [|auto]]].
    + split; [exact Hm|]. cbn [setPending ilen idist imode]. intros _. split; [eauto|exact Hd].
    + rewrite Erest. unfold irest. cbn [setPending ilen idist imode ifinal]. rewrite Em.
      destruct (N.eqb_spec (ilen i - 1) 0) as [Ez|Ez]; cbn [negb]; apply after_eqv.
      * rewrite Ez in Hstep. rewrite (ocopy_zero o' pre (m ++ [v])) in Hstep; [|apply Ho'|apply Ho'|rewrite bytesN_app, bytesN_one; lia].
        exact (eqv_bind _ _ (fun o' => DCB ld dd g o') Hstep).
      * apply eqv_bind. exact Hstep.
    + unfold imeas, work. rewrite Hc', Hout, app_length. cbn [length]. pose proof (irank_le (setPending i (idist i) (ilen i - 1))).
      pose proof (so_room _ _ _ _ Hso). unfold sfull in Ef. apply Nat.eqb_neq in Ef. lia.
Qed.

Hypothesis Hlen : ilen i = 0.
Lemma rest_mode : irest i g o =
  match imode i with
  | MHeader => DB g o
  | MStoredLength => after (ifinal i) (storedRestW 32 g o)
  | MStoredData k => after (ifinal i) (readStored (N.to_nat k) g o)
  | MDynamicHeader => after (ifinal i) (decodeDynamicBlock g o)
  | MCodeLengths nl nd nc idx cl => after (ifinal i) (afterCodeLengths nl nd o (readCodeLengths (seq idx (nc - idx)) cl g))
  | MLengths nl nd d idx lens => after (ifinal i) (afterLengths nl nd o (RL d (nl + nd) lens idx g))
  | MCompressed ld dd => after (ifinal i) (DCB ld dd g o)
  | MDone => Ok (g, o)
  end.
Proof. unfold irest. rewrite Hlen. reflexivity. Qed.
Lemma rest_set f md d g' o' : irest {| imode := md; ifinal := f; idist := d; ilen := ilen i |} g' o' =
  match md with
  | MHeader => DB g' o'
  | MStoredLength => after f (storedRestW 32 g' o')
  | MStoredData k => after f (readStored (N.to_nat k) g' o')
  | MDynamicHeader => after f (decodeDynamicBlock g' o')
  | MCodeLengths nl nd nc idx cl => after f (afterCodeLengths nl nd o' (readCodeLengths (seq idx (nc - idx)) cl g'))
  | MLengths nl nd dc idx lens => after f (afterLengths nl nd o' (RL dc (nl + nd) lens idx g'))
  | MCompressed ld dd => after f (DCB ld dd g' o')
  | MDone => Ok (g', o')
  end.
Proof. unfold irest. cbn [ilen imode ifinal]. rewrite Hlen. reflexivity. Qed.
Lemma wf_set f md d g' : modeWf md g' -> iwf {| imode := md; ifinal := f; idist := d; ilen := ilen i |} g'.
Proof. intros H. split; [exact H|]. cbn [ilen]. congruence. Qed.
(** A step that reads and keeps the output. *)
Lemma advance i' r' g' : rrel inp cur org n r' g' -> rok g' -> rinput g' = rinput g -> iwf i' g' -> eqv (irest i g o) (irest i' g' o) ->
  (available r' < available r \/ (available r' = available r /\ irank i' < irank i))%nat -> ok (i', r', so, Advanced).
Proof.
  intros H1 H2 H3 H4 H5 H6. cbn [istepOk ok]. unfold ok. cbn [istepOk]. exists g', o, m. repeat (split; [assumption|]). split; [|auto].
  unfold imeas, work. pose proof (irank_le i'). lia.
Qed.
Lemma split_header g1 v : readBits 3 g = Ok (v, g1) ->
  DB g o = after (negb (N.land v 1 =? 0)) (oneBlock (N.shiftr v 1) g1 o).
Proof.
  intros E. rewrite DB_unfold. change 3%nat with (1 + 2)%nat in E. rewrite read_split in E by (try assumption; lia).
  destruct (readBits 1 g) as [[f r1]| | |] eqn:E1; cbn [bind] in *; try discriminate.
  destruct (readBits 2 r1) as [[k r2]| | |] eqn:E2; cbn [bind] in *; try discriminate.
  assert (Hv : v = f + 2 ^ N.of_nat 1 * k) by congruence. assert (g1 = r2) by congruence. subst v g1. clear E.
  destruct (readBits_inv 1 g f r1 Hok ltac:(lia) E1) as (_ & B1 & _). change (2 ^ N.of_nat 1) with 2 in *.
  assert (Ev : N.land (f + 2 * k) 1 = f).
  { change 1 with (N.ones 1). rewrite N.land_ones. change (2 ^ 1) with 2. rewrite (N.mul_comm 2), N.mod_add by discriminate. apply N.mod_small, B1. }
  assert (Ek : N.shiftr (f + 2 * k) 1 = k).
  { rewrite N.shiftr_div_pow2. change (2 ^ 1) with 2. rewrite (N.mul_comm 2), N.div_add, N.div_small by (discriminate || exact B1). reflexivity. }
  rewrite Ev, Ek. unfold after. destruct (oneBlock k r2 o) as [[r3 o3]| | |]; cbn [bind]; try reflexivity. destruct (f =? 0); reflexivity.
Qed.
Lemma header_err : isErr (readBits 3 g) -> isErr (DB g o).
Proof.
  intros (e & E). rewrite DB_unfold. change 3%nat with (1 + 2)%nat in E. rewrite read_split in E by (try assumption; lia).
  destruct (readBits 1 g) as [[f r1]| | |] eqn:E1; cbn [bind] in *; try discriminate; [|apply err_intro].
  destruct (readBits 2 r1) as [[k r2]| | |] eqn:E2; cbn [bind] in *; try discriminate. apply err_intro.
Qed.
Lemma storedRest_eq g1 : rok g1 -> decodeStoredBlock g1 o = storedRestW 32 (alignReader g1) o.
Proof.
  intros Hg1. destruct (align_adv g1 Hg1) as (A0 & _). pose proof (adv_rok _ _ _ A0) as Ha. unfold decodeStoredBlock, storedRestW. change 32%nat with (16 + 16)%nat.
  rewrite read_split by (try assumption; lia).
  destruct (readBits 16 (alignReader g1)) as [[a r1]| | |] eqn:E1; cbn [bind]; try reflexivity.
  destruct (readBits 16 r1) as [[b r2]| | |] eqn:E2; cbn [bind]; try reflexivity.
  destruct (readBits_inv 16 _ _ _ Ha ltac:(lia) E1) as (R1 & B1 & _). destruct (readBits_inv 16 _ _ _ R1 ltac:(lia) E2) as (_ & B2 & _).
  change (N.of_nat 16) with 16 in *. change (2 ^ 16) with 65536 in *.
  assert (Ea : tr 16 (a + 65536 * b) = tr 16 a).
  { unfold tr. change (2 ^ 16) with 65536. rewrite (N.mul_comm 65536), N.mod_add by discriminate. reflexivity. }
  assert (Eb : N.shiftr (a + 65536 * b) 16 = b).
  { rewrite N.shiftr_div_pow2. change (2 ^ 16) with 65536. rewrite (N.mul_comm 65536), N.div_add, N.div_small by (discriminate || exact B1). reflexivity. }
  rewrite Ea, Eb. reflexivity.
Qed.
Lemma header_ok : imode i = MHeader -> ok (stepHeader i fin r so).
Proof.
  intros Em. unfold stepHeader. pose proof (sread_ok inp cur org n fin 3 r g Hrel Hok ltac:(lia)) as H. pose proof rest_mode as Er. rewrite Em in Er.
  destruct (sread 3 fin r) as [r1 [v| |e|]]; cbn [stop].
  - destruct H as (g1 & E & H1 & H2 & H3 & H4 & H5). pose proof (split_header g1 v E) as Hs. unfold oneBlock in Hs.
    destruct (N.eqb_spec (N.shiftr v 1) 0) as [K0|K0].
    + destruct (align_adv g1 H2) as (A0 & C0 & P0). apply advance with (g' := alignReader g1).
      * apply align_piece, H1.
      * exact (adv_rok _ _ _ A0).
      * rewrite <- H3. apply A0.
      * apply wf_set. exact C0.
      * rewrite rest_set, Er, Hs, storedRest_eq by exact H2. apply eqv_refl.
      * pose proof (align_available r1). lia.
    + destruct (N.eqb_spec (N.shiftr v 1) 1) as [K1|K1].
      * destruct fixedDecoders as (ld & dd & E1 & E2 & Hl & Hd). rewrite E1, E2 in *. cbn [bind] in Hs.
        apply advance with (g' := g1); try assumption; [apply wf_set; split; (split; [eapply decoder_max; eassumption|eauto])|rewrite rest_set, Er, Hs; apply eqv_refl|lia].
      * destruct (N.eqb_spec (N.shiftr v 1) 2) as [K2|K2].
        -- apply advance with (g' := g1); try assumption; [apply wf_set; exact I|rewrite rest_set, Er, Hs; apply eqv_refl|lia].
        -- unfold ok. cbn [istepOk]. intros _. rewrite Er, Hs. apply after_err, err_intro.
  - unfold ok. cbn [istepOk]. destruct H as (-> & -> & H). repeat (split; [reflexivity|]). lia.
  - unfold ok. cbn [istepOk]. intros Hf. rewrite Er. apply header_err, H, Hf.
  - destruct H.
Qed.
Lemma read_aligned w v g1 : readBits w g = Ok (v, g1) -> rcount g = 0%nat -> (w <= 32)%nat -> (w mod 8 = 0)%nat -> rcount g1 = 0%nat.
Proof.
  intros E Hc Hw Hm. destruct (readBits_inv w g v g1 Hok Hw E) as ((_ & _ & C1 & _ & Q1) & _ & _ & _ & Ho1). unfold offset in Ho1. rewrite Hc in Ho1.
  apply Nat.mod_divides in Hm; [|lia]. destruct Hm as (q & ->). lia.
Qed.
Lemma storedRest_ok w g1 v : readBits w g = Ok (v, g1) ->
  storedRestW w g o = if negb (0xffff - tr 16 v =? tr 16 (N.shiftr v 16)) then Err invalidStoredBlockLength else readStored (N.to_nat (tr 16 v)) g1 o.
Proof. intros E. unfold storedRestW. rewrite E. reflexivity. Qed.
Lemma storedRest_err w : isErr (readBits w g) -> isErr (storedRestW w g o).
Proof. intros H. apply err_bind, H. Qed.
Lemma storedLength_ok : imode i = MStoredLength -> ok (stepStoredLength i fin r so).
Proof.
  intros Em. unfold stepStoredLength. pose proof (sread_ok inp cur org n fin 32 r g Hrel Hok ltac:(lia)) as H. pose proof rest_mode as Er. rewrite Em in Er.
  destruct Hwf as [Hm _]. rewrite Em in Hm. cbn [modeWf] in Hm.
  destruct (sread 32 fin r) as [r1 [v| |e|]]; cbn [stop].
  - destruct H as (g1 & E & H1 & H2 & H3 & H4 & H5). rewrite (storedRest_ok _ _ _ E) in Er.
    destruct (negb (65535 - tr 16 v =? tr 16 (N.shiftr v 16))) eqn:Ec.
    + unfold ok. cbn [istepOk]. intros _. rewrite Er. apply after_err, err_intro.
    + apply advance with (g' := g1); try assumption; [apply wf_set; cbn [modeWf]; exact (read_aligned 32 v g1 E Hm ltac:(lia) eq_refl)|unfold setMode; rewrite rest_set, Er; apply eqv_refl|lia].
  - unfold ok. cbn [istepOk]. destruct H as (-> & -> & H). repeat (split; [reflexivity|]). lia.
  - unfold ok. cbn [istepOk]. intros Hf. rewrite Er. apply after_err, storedRest_err, H, Hf.
  - destruct H.
Qed.
Lemma storedData_ok k : imode i = MStoredData k -> ok (stepStoredData k i fin r so).
Proof.
  intros Em. unfold stepStoredData. pose proof rest_mode as Er. rewrite Em in Er. destruct Hwf as [Hm _]. rewrite Em in Hm. cbn [modeWf] in Hm.
  destruct (N.eqb_spec k 0) as [->|Hk].
  - change (N.to_nat 0) with 0%nat in Er. cbn [readStored after bind] in Er. destruct (ifinal i) eqn:Ef.
    + unfold ok. cbn [istepOk]. exists g, g. split; [assumption|]. split; [assumption|]. split; [reflexivity|]. split; [assumption|]. split; [reflexivity|].
      split; [exact Er|]. split; [|split; [lia|]].
      * destruct (align_adv g Hok) as (_ & _ & P0). exact P0.
      * intros _. unfold irank. rewrite Hlen, Em. cbn. lia.
    + apply advance with (g' := g); try assumption; [reflexivity|apply wf_set; exact I|unfold setMode; rewrite rest_set, Er; apply eqv_refl|].
      right. split; [reflexivity|]. unfold irank. cbn [setMode ilen imode]. rewrite Hlen, Em. cbn. lia.
  - destruct (sfull so) eqn:Ef; [unfold ok; cbn [istepOk]; auto|]. pose proof (sread_ok inp cur org n fin 8 r g Hrel Hok ltac:(lia)) as H.
    assert (Ek : readStored (N.to_nat k) g o = (let* (v, r') := readBits 8 g in let* o' := append o v in readStored (N.to_nat (k - 1)) r' o')).
    { destruct (N.to_nat k) as [|q] eqn:Eq; [lia|]. replace (N.to_nat (k - 1)) with q by lia. reflexivity. }
    rewrite Ek in Er. clear Ek. destruct (sread 8 fin r) as [r1 [v| |e|]]; cbn [stop].
    + destruct H as (g1 & E & H1 & H2 & H3 & H4 & H5). rewrite E in Er. cbn [bind] in Er. change (2 ^ N.of_nat 8) with 256 in H4.
      destruct (sappend_spec p0 so pre m v Hso H4) as [(Hf & _)|[(_ & Hlim & Ea)|(_ & so' & Ea & Hso' & Hl' & Hc' & Hout & Hlt)]]; [congruence| |]; rewrite Ea.
      * unfold ok. cbn [istepOk]. intros _. rewrite Er. apply after_err, err_bind. eapply append_full; [exact Ho|apply (so_total _ _ _ _ Hso)|exact Hlim].
      * destruct (append_ok o so pre m v so' Ho Hl' (so_total _ _ _ _ Hso) Hlt) as (o' & Eo & Ho'). rewrite Eo in Er. cbn [bind] in Er.
        unfold ok. cbn [istepOk]. exists g1, o', (m ++ [v]). repeat (split; [assumption|]). split; [|split; [|split; [|auto]]].
        -- apply wf_set. cbn [modeWf]. exact (read_aligned 8 v g1 E Hm ltac:(lia) eq_refl).
        -- unfold setMode. rewrite rest_set, Er. apply eqv_refl.
        -- unfold imeas, work. rewrite Hc', Hout, app_length. cbn [length]. pose proof (irank_le (setMode i (MStoredData (k - 1)))). lia.
    + unfold ok. cbn [istepOk]. destruct H as (-> & -> & H). repeat (split; [reflexivity|]). lia.
    + unfold ok. cbn [istepOk]. intros Hf. rewrite Er. apply after_err, err_bind, H, Hf.
    + destruct H.
Qed.
Lemma dynHeader_eq v g1 : readBits 14 g = Ok (v, g1) ->
  decodeDynamicBlock g o =
  (let nl := (N.to_nat (N.land v 0x1f) + 257)%nat in
   let nd := (N.to_nat (N.land (N.shiftr v 5) 0x1f) + 1)%nat in
   let nc := (N.to_nat (N.land (N.shiftr v 10) 0x0f) + 4)%nat in
   if (286 <? nl)%nat || (30 <? nd)%nat then Err invalidHuffmanTree
   else afterCodeLengths nl nd o (readCodeLengths (seq 0 nc) (repeat 0%nat 19) g1)).
Proof.
  intros E. change 14%nat with (5 + 9)%nat in E. rewrite read_split in E by (try assumption; lia). unfold decodeDynamicBlock.
  destruct (readBits 5 g) as [[a r1]| | |] eqn:E1; cbn [bind] in *; try discriminate.
  destruct (readBits_inv 5 _ _ _ Hok ltac:(lia) E1) as (R1 & B1 & _).
  change 9%nat with (5 + 4)%nat in E. rewrite read_split in E by (try assumption; lia).
  destruct (readBits 5 r1) as [[b r2]| | |] eqn:E2; cbn [bind] in *; try discriminate.
  destruct (readBits_inv 5 _ _ _ R1 ltac:(lia) E2) as (R2 & B2 & _).
  destruct (readBits 4 r2) as [[c r3]| | |] eqn:E3; cbn [bind] in *; try discriminate.
  destruct (readBits_inv 4 _ _ _ R2 ltac:(lia) E3) as (R3 & B3 & _).
  assert (Hv : v = a + 2 ^ N.of_nat 5 * (b + 2 ^ N.of_nat 5 * c)) by congruence. assert (g1 = r3) by congruence. subst v g1. clear E.
  change (N.of_nat 5) with 5 in *. change (N.of_nat 4) with 4 in *. change (2 ^ 5) with 32 in *. change (2 ^ 4) with 16 in *.
  assert (Va : N.land (a + 32 * (b + 32 * c)) 31 = a).
  { change 31 with (N.ones 5). rewrite N.land_ones. change (2 ^ 5) with 32. rewrite (N.mul_comm 32), N.mod_add by discriminate. apply N.mod_small, B1. }
  assert (Vb : N.land (N.shiftr (a + 32 * (b + 32 * c)) 5) 31 = b).
  { rewrite N.shiftr_div_pow2. change 31 with (N.ones 5). rewrite N.land_ones. change (2 ^ 5) with 32.
    rewrite (N.mul_comm 32 (b + 32 * c)), N.div_add, (N.div_small a), N.add_0_l by (discriminate || exact B1).
    rewrite (N.mul_comm 32), N.mod_add by discriminate. apply N.mod_small, B2. }
  assert (Vc : N.land (N.shiftr (a + 32 * (b + 32 * c)) 10) 15 = c).
  { rewrite N.shiftr_div_pow2. change 15 with (N.ones 4). rewrite N.land_ones. change (2 ^ 10) with (32 * 32). change (2 ^ 4) with 16.
    rewrite <- N.div_div by discriminate. rewrite (N.mul_comm 32 (b + 32 * c)), N.div_add, (N.div_small a), N.add_0_l by (discriminate || exact B1).
    rewrite (N.mul_comm 32), N.div_add, (N.div_small b), N.add_0_l by (discriminate || exact B2). apply N.mod_small, B3. }
  rewrite Va, Vb, Vc. reflexivity.
Qed.
Lemma dynHeader_err : isErr (readBits 14 g) -> isErr (decodeDynamicBlock g o).
Proof.
  intros (e & E). change 14%nat with (5 + 9)%nat in E. rewrite read_split in E by (try assumption; lia). unfold decodeDynamicBlock.
  destruct (readBits 5 g) as [[a r1]| | |] eqn:E1; cbn [bind] in *; try discriminate; [|apply err_intro].
  destruct (readBits_inv 5 _ _ _ Hok ltac:(lia) E1) as (R1 & B1 & _).
  change 9%nat with (5 + 4)%nat in E. rewrite read_split in E by (try assumption; lia).
  destruct (readBits 5 r1) as [[b r2]| | |] eqn:E2; cbn [bind] in *; try discriminate; [|apply err_intro].
  destruct (readBits 4 r2) as [[c r3]| | |] eqn:E3; cbn [bind] in *; try discriminate. apply err_intro.
Qed.
Lemma dynHeader_ok : imode i = MDynamicHeader -> ok (stepDynamicHeader i fin r so).
Proof.
  intros Em. unfold stepDynamicHeader. pose proof (sread_ok inp cur org n fin 14 r g Hrel Hok ltac:(lia)) as H. pose proof rest_mode as Er. rewrite Em in Er.
  destruct (sread 14 fin r) as [r1 [v| |e|]]; cbn [stop].
  - destruct H as (g1 & E & H1 & H2 & H3 & H4 & H5). rewrite (dynHeader_eq v g1 E) in Er. cbn zeta in *.
    destruct (_ || _) eqn:Ec; cbn iota.
    + unfold ok. cbn [istepOk]. intros _. rewrite Er. apply after_err, err_intro.
    + apply orb_false_elim in Ec. destruct Ec as [Ec1 Ec2]. apply Nat.ltb_ge in Ec1, Ec2.
      apply advance with (g' := g1); try assumption; [apply wf_set; cbn [modeWf]|unfold setMode; rewrite rest_set, Er, Nat.sub_0_r; apply eqv_refl|lia].
      split; [split; lia|]. split; [|apply repeat_length]. split; [lia|].
      assert (N.land (N.shiftr v 10) 15 < 16). { change 15 with (N.ones 4). rewrite N.land_ones. apply N.mod_lt. discriminate. } lia.
  - unfold ok. cbn [istepOk]. destruct H as (-> & -> & H). repeat (split; [reflexivity|]). lia.
  - unfold ok. cbn [istepOk]. intros Hf. rewrite Er. apply after_err, dynHeader_err, H, Hf.
  - destruct H.
Qed.
Lemma codeLengths_ok nl nd nc idx cl : imode i = MCodeLengths nl nd nc idx cl -> ok (stepCodeLengths nl nd nc idx cl i fin r so).
Proof.
  intros Em. unfold stepCodeLengths. pose proof rest_mode as Er. rewrite Em in Er. destruct Hwf as [Hm _]. rewrite Em in Hm. cbn [modeWf] in Hm.
  destruct Hm as (Hrg & Hidx & Hcl). destruct (Nat.ltb_spec idx nc) as [Hlt|Hge].
  - pose proof (sread_ok inp cur org n fin 3 r g Hrel Hok ltac:(lia)) as H.
    replace (nc - idx)%nat with (S (nc - S idx)) in Er by lia. cbn [seq readCodeLengths] in Er.
    destruct (sread 3 fin r) as [r1 [v| |e|]]; cbn [stop].
    + destruct H as (g1 & E & H1 & H2 & H3 & H4 & H5). rewrite E in Er. cbn [bind] in Er.
      assert (Hslot : exists slot, aget kCodeLengthOrder idx = Ok slot /\ (slot < 19)%nat).
      { exists (nth idx sendOrder 0%nat). split; [|apply order_lt; lia]. unfold aget. rewrite order_eq.
        rewrite (nth_error_nth' sendOrder 0%nat); [reflexivity|]. change (length sendOrder) with 19%nat. lia. }
      destruct Hslot as (slot & Es & Hs). rewrite Es in *. cbn [bind] in *. unfold aset in *. rewrite Hcl in *.
      destruct (Nat.ltb_spec slot 19) as [_|]; [|lia]. cbn [bind] in Er.
      apply advance with (g' := g1); try assumption; [apply wf_set; cbn [modeWf]|unfold setMode; rewrite rest_set, Er; apply eqv_refl|lia].
      split; [exact Hrg|]. split; [lia|]. rewrite length_upd. exact Hcl.
    + unfold ok. cbn [istepOk]. destruct H as (-> & -> & H). repeat (split; [reflexivity|]). lia.
    + unfold ok. cbn [istepOk]. intros Hf. rewrite Er. apply after_err. unfold afterCodeLengths. apply err_bind, err_bind, H, Hf.
    + destruct H.
  - replace (nc - idx)%nat with 0%nat in Er by lia. cbn [seq readCodeLengths] in Er. unfold afterCodeLengths in Er. cbn [bind] in Er.
    destruct (clDecoder_spec cl Hcl) as [(_ & d & E & Hd)|(_ & E)]; rewrite E in *; cbn [bind] in Er.
    + apply advance with (g' := g); try assumption; [reflexivity|apply wf_set; cbn [modeWf]|unfold setMode; rewrite rest_set, Er; apply eqv_refl|].
      * split; [exact Hrg|]. split; [destruct Hrg; lia|]. split; [apply repeat_length|]. split; [exact (decoder_max _ _ _ _ _ _ E)|eauto].
      * right. split; [reflexivity|]. unfold irank. cbn [setMode ilen imode]. rewrite Hlen, Em. cbn [negb N.eqb].
        destruct (Nat.ltb_spec idx nc); [lia|]. destruct (_ <? _)%nat; lia.
    + unfold ok. cbn [istepOk]. intros _. rewrite Er. apply after_err, err_intro.
Qed.
Lemma lengths_ok nl nd d idx lens : imode i = MLengths nl nd d idx lens -> ok (stepLengths nl nd d idx lens i fin r so).
Proof.
  intros Em. unfold stepLengths. pose proof rest_mode as Er. rewrite Em in Er. destruct Hwf as [Hm _]. rewrite Em in Hm. cbn [modeWf] in Hm.
  destruct Hm as (Hrg & Hidx & Hln & Hmx & cl & Hd & Hcl). rewrite RL_unfold in Er. destruct (Nat.leb_spec (nl + nd) idx) as [Hge|Hlt].
  - unfold afterLengths in Er. cbn [bind] in Er. destruct Hrg as [Hnl Hnd].
    pose proof (dynamicDecoders_spec lens nl nd Hln Hnl Hnd) as Hdd. cbn zeta in Hdd.
    destruct (dynamicDecoders lens nl nd) as [[ld dd]|e| |] eqn:Edy; cbn [bind] in Er; try contradiction.
    + apply advance with (g' := g); try assumption; [reflexivity|apply wf_set; cbn [modeWf]; destruct (dynamic_max _ _ _ _ _ Edy); split; (split; [assumption|eexists; apply Hdd])|unfold setMode; rewrite rest_set, Er; apply eqv_refl|].
      right. split; [reflexivity|]. unfold irank. cbn [setMode ilen imode]. rewrite Hlen, Em. cbn [negb N.eqb]. destruct (Nat.ltb_spec idx (nl + nd)); lia.
    + unfold ok. cbn [istepOk]. intros _. rewrite Er. apply after_err, err_intro.
  - pose proof (ssym_ok inp cur org n fin cl d r g Hd Hrel Hok) as H. destruct (ssymbol d fin r) as [r1 [s| |e|]]; cbn [stop].
    + destruct H as (g1 & E & H1 & H2 & H3 & H4 & H5). rewrite E in Er. cbn [bind] in Er.
      destruct (Nat.leb_spec s 15) as [Hs|Hs].
      * unfold aset in *. destruct Hrg. destruct (Nat.ltb_spec idx (length lens)) as [_|]; [|lia]. cbn [bind] in Er.
        apply advance with (g' := g1); try assumption; [apply wf_set; cbn [modeWf]|unfold setMode; rewrite rest_set, Er; apply eqv_refl|lia].
        split; [split; assumption|]. split; [lia|]. split; [rewrite length_upd; exact Hln|eauto].
      * remember (if (s =? 16)%nat then if (idx =? 0)%nat then Err invalidHuffmanTree else let* v := aget lens (idx - 1) in Ok (v, 3%nat, 2%nat)
                  else if (s =? 17)%nat then Ok (0%nat, 3%nat, 3%nat) else if (s =? 18)%nat then Ok (0%nat, 11%nat, 7%nat) else Err invalidCode) as sel eqn:Esel.
        assert (Hsel : match sel with Ok (_, _, b) => (b <= 7)%nat | Err _ => True | _ => False end).
        { subst sel. destruct (s =? 16)%nat; [destruct (Nat.eqb_spec idx 0) as [|Hz]; [exact I|]|destruct (s =? 17)%nat; [lia|destruct (s =? 18)%nat; [lia|exact I]]].
          unfold aget. destruct Hrg. rewrite (nth_error_nth' lens 0%nat) by lia. cbn [bind]. lia. }
        clear Esel. destruct sel as [[[value b] bits]|e| |]; try contradiction; cbn [bind] in Er.
        -- assert (H1' : rrel inp cur org n r1 g1) by exact H1. pose proof (sread_ok inp cur org n fin bits r1 g1 H1 H2 ltac:(lia)) as Hx.
           destruct (sread bits fin r1) as [r2 [x| |e|]]; cbn [stop].
           ++ destruct Hx as (g2 & E2 & X1 & X2 & X3 & X4 & X5). rewrite E2 in Er. cbn [bind] in Er. cbn zeta in *.
              destruct (Nat.ltb_spec (nl + nd - idx) (b + N.to_nat x)) as [Hbig|Hfit].
              ** unfold ok. cbn [istepOk]. intros _. rewrite Er. apply after_err, err_intro.
              ** destruct Hrg as [R1 R2]. destruct (fillLengths_spec (b + N.to_nat x) lens idx value ltac:(lia)) as (l' & Efl & Hl' & _). rewrite Efl in *. cbn [bind] in Er.
                 apply advance with (g' := g2); try assumption; [congruence|apply wf_set; cbn [modeWf]|unfold setMode; rewrite rest_set, Er; apply eqv_refl|lia].
                 split; [split; assumption|]. split; [lia|]. split; [congruence|eauto].
           ++ unfold ok. cbn [istepOk]. destruct Hx as (_ & -> & Hx). repeat (split; [reflexivity|]). lia.
           ++ unfold ok. cbn [istepOk]. intros Hf. rewrite Er. apply after_err. unfold afterLengths. apply err_bind, err_bind, Hx, Hf.
           ++ destruct Hx.
        -- unfold ok. cbn [istepOk]. intros _. rewrite Er. apply after_err, err_intro.
    + unfold ok. cbn [istepOk]. destruct H as (-> & -> & H). repeat (split; [reflexivity|]). lia.
    + unfold ok. cbn [istepOk]. intros Hf. rewrite Er. apply after_err. unfold afterLengths. apply err_bind, err_bind, H, Hf.
    + destruct H.
Qed.
Lemma compressed_ok ld dd : imode i = MCompressed ld dd -> ok (stepCompressed ld dd i fin r so).
Proof.
  intros Em. unfold stepCompressed. pose proof rest_mode as Er. rewrite Em in Er. destruct Hwf as [Hm _]. rewrite Em in Hm. cbn [modeWf] in Hm.
  destruct Hm as ((Ml & ll & Hl) & (Md & dl & Hd)). rewrite DCB_unfold in Er.
  pose proof (ssym_ok inp cur org n fin ll ld r g Hl Hrel Hok) as H. destruct (ssymbol ld fin r) as [r1 [s| |e|]]; cbn [stop].
  - destruct H as (g1 & E & H1 & H2 & H3 & H4 & H5). rewrite E in Er. cbn [bind] in Er.
    destruct (Nat.ltb_spec s 256) as [Hs|Hs].
    { destruct (sfull so) eqn:Ef; [unfold ok; cbn [istepOk]; auto|].
      destruct (sappend_spec p0 so pre m (N.of_nat s) Hso ltac:(lia)) as [(Hf & _)|[(_ & Hlim & Ea)|(_ & so' & Ea & Hso' & Hl' & Hc' & Hout & Hlt)]]; [congruence| |]; rewrite Ea.
      - unfold ok. cbn [istepOk]. intros _. rewrite Er. apply after_err, err_bind. eapply append_full; [exact Ho|apply (so_total _ _ _ _ Hso)|exact Hlim].
      - destruct (append_ok o so pre m (N.of_nat s) so' Ho Hl' (so_total _ _ _ _ Hso) Hlt) as (o' & Eo & Ho'). rewrite Eo in Er. cbn [bind] in Er.
        unfold ok. cbn [istepOk]. exists g1, o', (m ++ [N.of_nat s]). repeat (split; [assumption|]). split; [|split; [|split; [|auto]]].
        + split; [rewrite Em; cbn [modeWf]; split; eauto|congruence].
        + rewrite Er. unfold irest. rewrite Hlen, Em. apply eqv_refl.
        + unfold imeas, work. rewrite Hc', Hout, app_length. cbn [length]. lia. }
    destruct (Nat.eqb_spec s 256) as [->|Hs2].
    { destruct (ifinal i) eqn:Ef; cbn [after bind] in Er.
      - unfold ok. cbn [istepOk]. destruct (align_adv g1 H2) as (A0 & C0 & P0). exists (alignReader g1), g1.
        split; [apply align_piece, H1|]. split; [exact (adv_rok _ _ _ A0)|]. split; [rewrite <- H3; apply A0|]. split; [exact C0|]. split; [reflexivity|].
        split; [exact Er|]. split; [reflexivity|]. pose proof (align_available r1). split; [lia|]. lia.
      - apply advance with (g' := g1); try assumption; [apply wf_set; exact I|unfold setMode; rewrite rest_set, Er; apply eqv_refl|lia]. }
    destruct (Nat.ltb_spec 285 s) as [Hbig|Hs3].
    { unfold ok. cbn [istepOk]. intros _. rewrite Er. apply after_err, err_intro. }
    destruct (sfull so) eqn:Ef; [unfold ok; cbn [istepOk]; auto|].
    destruct (lengthTable (s - 257) ltac:(lia)) as [T1 T2]. destruct extra_le as [X1 X2]. specialize (X1 (s - 257)%nat ltac:(lia)).
    unfold aget in *. rewrite T1, T2 in *. cbn [bind] in Er.
    pose proof (sextra_ok inp cur org n fin (lengthBase (s - 257)) (lengthExtra (s - 257)) r1 g1 H1 H2 ltac:(lia)) as HX.
    destruct (sextra (lengthBase (s - 257)) (lengthExtra (s - 257)) fin r1) as [r2 [len| |e|]]; cbn [stop].
    + destruct HX as (g2 & E2 & B1 & B2 & B3 & B4 & B5). rewrite E2 in Er. cbn [bind] in Er.
      pose proof (ssym_ok inp cur org n fin dl dd r2 g2 Hd B1 B2) as HY. destruct (ssymbol dd fin r2) as [r3 [ds| |e|]]; cbn [stop].
      * destruct HY as (g3 & E3 & C1 & C2 & C3 & C4 & C5). rewrite E3 in Er. cbn [bind] in Er.
        change (length kDistanceBase) with 30%nat in *. destruct (Nat.leb_spec 30 ds) as [Hbig|Hds].
        { unfold ok. cbn [istepOk]. intros _. rewrite Er. apply after_err, err_intro. }
        destruct (distTable ds Hds) as [D1 D2]. specialize (X2 ds Hds). rewrite D1, D2 in *. cbn [bind] in Er.
        pose proof (sextra_ok inp cur org n fin (distBase ds) (distExtra ds) r3 g3 C1 C2 ltac:(lia)) as HZ.
        destruct (sextra (distBase ds) (distExtra ds) fin r3) as [r4 [dv| |e|]]; cbn [stop].
        -- destruct HZ as (g4 & E4 & Z1 & Z2 & Z3 & Z4 & Z5). rewrite E4 in Er. cbn [bind] in Er.
           pose proof (distance_le _ _ ds dv Hds D1 D2 Z4) as Hdv.
           assert (Hlen1 : len <> 0).
           { assert (Hb : 3 <= lengthBase (s - 257)). { assert (F : forallb (fun j => 3 <=? lengthBase j) (seq 0 29) = true) by (vm_compute; reflexivity).
               rewrite forallb_forall in F. specialize (F (s - 257)%nat ltac:(apply in_seq; lia)). apply N.leb_le in F. exact F. } lia. }
           apply advance with (g' := g4); [assumption|assumption|congruence| | |lia].
           ++ split; [cbn [setPending imode]; rewrite Em; cbn [modeWf]; split; eauto|]. cbn [setPending ilen imode idist]. intros _. split; [eauto|apply Hdv].
           ++ rewrite Er. unfold irest. cbn [setPending ilen imode idist ifinal]. rewrite Em. destruct (N.eqb_spec len 0); [contradiction|]. cbn [negb]. apply eqv_refl.
        -- unfold ok. cbn [istepOk]. destruct HZ as [-> HZ]. repeat (split; [reflexivity|]). lia.
        -- unfold ok. cbn [istepOk]. intros Hf. rewrite Er. apply after_err, err_bind, HZ, Hf.
        -- destruct HZ.
      * unfold ok. cbn [istepOk]. destruct HY as (_ & -> & HY). repeat (split; [reflexivity|]). lia.
      * unfold ok. cbn [istepOk]. intros Hf. rewrite Er. apply after_err, err_bind, HY, Hf.
      * destruct HY.
    + unfold ok. cbn [istepOk]. destruct HX as [-> HX]. repeat (split; [reflexivity|]). lia.
    + unfold ok. cbn [istepOk]. intros Hf. rewrite Er. apply after_err, err_bind, HX, Hf.
    + destruct HX.
  - unfold ok. cbn [istepOk]. destruct H as (-> & -> & H). repeat (split; [reflexivity|]). lia.
  - unfold ok. cbn [istepOk]. intros Hf. rewrite Er. apply after_err, err_bind, H, Hf.
  - destruct H.
Qed.
End Step.
Lemma istep_ok inp cur org n fin i r so p0 pre m g o : rrel inp cur org n r g -> rok g -> sok p0 so pre m -> orel so o pre m -> iwf i g ->
  istepOk inp cur org n fin i r so p0 pre g o (istep fin i r so).
Proof.
  intros H1 H2 H3 H4 H5. unfold istep. destruct (N.eqb_spec (ilen i) 0) as [E|E]; cbn [negb].
  - destruct (imode i) as [| |k| |nl nd nc idx cl|nl nd d idx lens|ld dd|] eqn:Em.
    + eapply header_ok; eassumption.
    + eapply storedLength_ok; eassumption.
    + eapply storedData_ok; eassumption.
    + eapply dynHeader_ok; eassumption.
    + eapply codeLengths_ok; eassumption.
    + eapply lengths_ok; eassumption.
    + eapply compressed_ok; eassumption.
    + destruct H5 as [H5 _]. rewrite Em in H5. contradiction.
  - eapply copy_ok; eassumption.
Qed.
