(** Properties of the property map: C41, C42, C43, C46, C47, C49, C51. *)
From Coq Require Import String.
From Coq Require Import List NArith Bool Lia Permutation ZifyBool ZifyNat ZifyN.
From Verif Require Import Base WireModel WireProofs ChunkModel ChunkSpec ChunkPoolProofs ChunkProofs ValueMapModel ValueMapSpec ValueMapPool ValueMapInv ValueMapGrow ValueMapProofs ValueMapMore.
Import ListNotations.
Local Open Scope N_scope.

(** ** Concrete runs *)
Definition K (s : string) : key := bytesOf s.
Definition i32 (x : N) : value := VInline 4 0 (enc 8 x).
Definition goodB (v : value) : bool :=
  match v with
  | VInline vt ct b => (1 <=? vt) && (vt <=? 12) && (ct =? containerOf vt) && (len b =? 8)
  | VWide b => len b =? 16
  | VMap _ | VTensor _ _ | VMono => true
  | VString s => forallb (fun x => negb (x =? 0)) s
  | VRecord vt ct fl c => (ct =? 3) || ((ct =? 4) && (vt =? 15)) || ((ct =? containerOf vt) && (fl =? 0))
  end.
Definition present (k : key) (s : smap) : bool := match assoc k s with Some _ => true | None => false end.
Definition isMono (v : value) : bool := match v with VMono => true | _ => false end.
Definition roomB (s : smap) (k : key) : bool := (len s <? 65535) && (negb ((lookupId k =? 0) && (34 <? len k)) || (len s <? 43690)).
Definition legalB (s : smap) (o : op) : bool :=
  match o with
  | OEmplace k v al => goodB v && roomB s k && (negb al || present k s)
  | OAssign k v al => goodB v && roomB s k && (negb al || present k s) && (negb (isMono v) || negb (present k s))
  | _ => true
  end.
Lemma goodB_ok v : goodB v = true -> goodValue v.
Proof.
  destruct v; cbn [goodB goodValue]; try lia; auto.
  - intros H F. rewrite forallb_forall in H. specialize (H 0 F). discriminate.
Qed.
Lemma present_ok k s : present k s = true <-> assoc k s <> None.
Proof. unfold present. destruct (assoc k s); split; congruence. Qed.
Lemma legalB_ok s o : legalB s o = true -> legal s o.
Proof.
  assert (R : forall k, roomB s k = true -> room s k). { intros k. unfold roomB, room, longKey. rewrite andb_true_iff, orb_true_iff, negb_true_iff, !N.ltb_lt, andb_false_iff, N.eqb_neq, N.ltb_ge. intros [A [B|B]]; split; auto; intros [C D]; lia. }
  destruct o; cbn [legalB legal]; auto; rewrite !andb_true_iff, ?orb_true_iff, ?negb_true_iff; intros H.
  - destruct H as [[G H] A]. split; [apply goodB_ok; exact G|]. split; [apply R; exact H|]. intros ->. apply present_ok. destruct A; [discriminate|assumption].
  - destruct H as [[[G H] A] B]. split; [apply goodB_ok; exact G|]. split; [apply R; exact H|]. split; [intros ->; apply present_ok; destruct A; [discriminate|assumption]|]. intros ->. destruct B as [B|B]; [discriminate|]. unfold present in B. destruct (assoc k s); congruence.
Qed.
(** The maps that lists of legal operations lead to. *)
Fixpoint run (m : vmap) (s : smap) (l : list op) : option (vmap * smap) :=
  match l with
  | [] => Some (m, s)
  | o :: r => if legalB s o then match exec m o with Ok (m', x) => run m' (after s o x) r | _ => None end else None
  end.
Lemma run_reach (P : op -> Prop) l : Forall P l -> forall m s m' s', reachBy P m s -> run m s l = Some (m', s') -> reachBy P m' s'.
Proof.
  induction 1 as [|o r Po _ IH]; intros m s m' s' R; cbn [run]; [congruence|]. destruct (legalB s o) eqn:E; [|discriminate]. destruct (exec m o) as [[m1 x]| |] eqn:X; try discriminate.
  apply IH. eapply reach_step; [exact R|exact Po|apply legalB_ok; exact E|exact X].
Qed.
Lemma run_view {A} (P : op -> Prop) (f : vmap -> smap -> A) l x : Forall P l -> match run fresh8 [] l with Some (m, s) => Some (f m s) | None => None end = Some x -> exists m s, reachBy P m s /\ f m s = x.
Proof.
  intros F H. destruct (run fresh8 [] l) as [[m s]|] eqn:E; [|discriminate]. exists m, s. split; [|congruence]. eapply run_reach; [exact F|apply fresh8_reach|exact E].
Qed.
Lemma all_true l : Forall (fun _ : op => True) l. Proof. induction l; auto. Qed.
Lemma some_inj {A} (x y : A) : Some x = Some y -> x = y. Proof. congruence. Qed.
Definition str (s : string) : value := VString (bytesOf s).
Definition longA : key := repeat 65 36.
Definition longB : key := repeat 66 36.

(** ** C41: the property map is an insertion-ordered map.

    Whatever the history, iteration lists exactly the expected contents, keys are distinct, and lookup of every key finds what
    the association list says. *)
Theorem C41_refines : forall m s, reach m s -> iterate m = s /\ NoDup (map fst s) /\ forall k, lookup m k = assoc k s.
Proof.
  intros m s R. destruct (reach_inv false _ m s ltac:(discriminate) R) as (fr & I & It). split; [exact It|]. split.
  - rewrite <- It, fst_iterate. exact (i_keys _ _ _ I).
  - intros k. rewrite (lookup_assoc m k [] fr I), It. reflexivity.
Qed.
Print Assumptions C41_refines.

(** Every legal operation either hits the 4 GiB limit of the size fields or ends normally: no access outside the blob, no endless
    loop.  Its effect on the contents and its answer are those of the association list, or it is refused and changes nothing. *)
Theorem C41_step : forall m s o, reach m s -> legal s o -> exec m o = Limit \/
  exists m' r, exec m o = Ok (m', r) /\ iterate m' = after s o r /\ answers s o r /\ reach m' (after s o r).
Proof.
  intros m s o R L. destruct (reach_inv false _ m s ltac:(discriminate) R) as (fr & I & <-). destruct (step_ok m fr o I L ltac:(discriminate)) as [E|(m' & r & fr' & E & I' & It & An & _)]; [left; exact E|right].
  exists m', r. split; [exact E|]. split; [exact It|]. split; [exact An|]. eapply reach_step; [exact R|exact Logic.I|exact L|exact E].
Qed.
Print Assumptions C41_step.

(** An insertion or assignment is refused only in fixed storage or when the pool comes close to 4 GiB. *)
Theorem C41_refused : forall m s o m' r, reach m s -> legal s o -> exec m o = Ok (m', r) -> (forall k, o <> OErase k) -> r = Refused -> fixed m = true \/ W32 <= pused m' + bytesOfOp o + 64.
Proof.
  intros m s o m' r R L E Ne ->. destruct (reach_inv false _ m s ltac:(discriminate) R) as (fr & I & <-). destruct (step_ok m fr o I L ltac:(discriminate)) as [X|(m2 & r2 & fr' & X & I' & It & An & Fx & Why)]; rewrite X in E; [discriminate|].
  injection E as -> ->. rewrite <- Fx. destruct o; cbn [refusedWhy answers] in *; try (apply Why; reflexivity); try discriminate. contradiction (Ne k). reflexivity.
Qed.
Print Assumptions C41_refused.

(** No operation on one key changes the value of another; clear is the only operation without a key that removes anything. *)
Theorem C41_other_keys : forall m s o m' r k, reach m s -> legal s o -> exec m o = Ok (m', r) ->
  (forall v al, o <> OEmplace k v al) -> (forall v al, o <> OAssign k v al) -> o <> OErase k -> o <> OClear -> lookup m' k = lookup m k.
Proof.
  intros m s o m' r k R L E N1 N2 N3 N4. assert (R' : reach m' (after s o r)) by (eapply reach_step; [exact R|exact Logic.I|exact L|exact E]).
  destruct (C41_refines m s R) as (_ & _ & A). destruct (C41_refines m' _ R') as (_ & _ & A'). rewrite A, A'. apply after_other; [|exact N4].
  destruct o; cbn [keyOf]; try discriminate; intros X; injection X as ->; [eapply N1|eapply N2|apply N3]; reflexivity.
Qed.
Print Assumptions C41_other_keys.

(** Copies are independent maps with the same contents (the model has no sharing), and copy assignment gives the source's. *)
Theorem C41_copy : forall m s d sd jk, reach m s -> reach d sd ->
  iterate (copyOf m jk) = iterate m /\ (fixed m = false -> fixed d = false -> iterate (assignMap d m) = iterate m).
Proof.
  intros m s d sd jk R Rd. split; [|intros F Fd].
  - rewrite (proj1 (C41_refines m s R)). apply (C41_refines (copyOf m jk) s). apply reach_copy. exact R.
  - rewrite (proj1 (C41_refines m s R)). apply (C41_refines (assignMap d m) s). apply reach_assign with sd; assumption.
Qed.
Print Assumptions C41_copy.

Definition ops41 : list op :=
  [ OEmplace (K "a") (i32 5) false; OEmplace (K "gr:context") (str "hello world, this is long") false; OEmplace longA (i32 6) false; OErase (K "a");
    OAssign (K "gr:context") (str "x") false; OAssign longA (str "y") false; OEmplace longB (VMap (repeat 9 40)) false; OAssign longB (VTensor 4 (repeat 1 100)) false; OShrink;
    OEmplace (K "b") VMono false; OErase longA; OEmplace (K "c") (VWide (repeat 3 16)) false ].
Example C41_example : exists m s, reach m s /\ (iterate m, lookup m (K "gr:context"), lookup m longA) =
  ( [ (K "gr:context", Item 14 2 0 [120]); (longB, Item 4 3 16 (repeat 1 100 ++ repeat 0 4)); (K "b", Empty); (K "c", Item 13 1 0 (repeat 3 16 ++ repeat 0 8)) ],
    Some (Item 14 2 0 [120]), None ).
Proof. apply (run_view _ (fun m _ => (iterate m, lookup m (K "gr:context"), lookup m longA)) ops41); [apply all_true|]. vm_compute. reflexivity. Qed.

(** *** Where the claim fails *)
(** The entry counter has 16 bits: inserting the 65536th key succeeds and leaves an empty map. *)
Theorem C41_entry_limit_refuted : exists m s k, reach m s /\ len s = 65535 /\ assoc k s = None /\ exists m', exec m (OEmplace k VMono false) = Ok (m', Inserted) /\ iterate m' = [].
Proof.
  remember (N.to_nat 65535) as n eqn:Hn. assert (H : N.of_nat n = 65535) by (rewrite Hn; apply N2Nat.id). clear Hn.
  destruct (bare_reach n) as (m & s & R & B); [lia|]. exists m, s, (akey n). split; [exact R|]. split; [rewrite (bare_size m s n R B); exact H|].
  destruct (last_insert m n B H) as (m' & E & It). split; [|exists m'; split; [exact E|exact It]].
  destruct (C41_refines m s R) as (_ & _ & A). rewrite <- A. unfold lookup. rewrite (bare_absent m n); [reflexivity|exact B| |reflexivity]. intros i Hi Q. apply akey_inj in Q; unfold W32; lia.
Qed.
Print Assumptions C41_entry_limit_refuted.

(** The 16-bit capacity field: in a table grown to 65536 or more slots, the insertion of a long key reallocates again with room
    for the present entries only and then writes the new entry behind the table, over the pool. *)
Theorem C41_capacity_refuted : exists m s k, reach m s /\ len s = 43690 /\ len k = 36 /\ exec m (OEmplace k VMono false) = Bad.
Proof.
  remember (N.to_nat 43690) as n eqn:Hn. assert (H : N.of_nat n = 43690) by (rewrite Hn; apply N2Nat.id). clear Hn.
  assert (E0 : exists m0, exec fresh8 (OReserve 43690 0) = Ok (m0, Existing) /\ bare m0 0 /\ ecap m0 = 43691).
  { assert (B : bare fresh8 0) by (unfold bare; cbn [fresh8 fixed entries pused pcap fhead cap ecap poff]; repeat (split; [reflexivity || lia|]); lia).
    destruct (grow_bare fresh8 0 43691 0 B ltac:(lia) ltac:(lia) ltac:(lia)) as (m0 & E & G1 & G2 & G3 & G4 & G5 & G6 & G7 & G8 & _). change (N.max (N.max 43691 (N.of_nat 0)) (N.max (ecap fresh8 + ecap fresh8 / 2) 8)) with 43691 in *. change (43691 mod 65536) with 43691 in G8.
    exists m0. split; [|split; [|exact G8]]. - cbn [exec]. change (reserve fresh8 43690 0) with (grow fresh8 43691 0 false). rewrite E. reflexivity.
    - unfold bare. rewrite G8. split; [exact G2|]. split; [exact G1|]. split; [exact G3|]. split; [exact G4|]. split; [exact G5|]. split; [lia|]. split; lia. }
  destruct E0 as (m0 & E0 & B0 & Ec). assert (R0 : reach m0 []) by (eapply (reach_step _ fresh8 [] (OReserve 43690 0) m0 Existing); [apply fresh8_reach|exact Logic.I|exact Logic.I|exact E0]).
  destruct (bare_reach_from m0 [] R0 B0 n ltac:(lia)) as (m & s & R & B & Em). exists m, s, bigKey. split; [exact R|]. split; [rewrite (bare_size m s n R B); exact H|]. split; [reflexivity|]. apply (long_insert m n B H). congruence.
Qed.
Print Assumptions C41_capacity_refuted.

(** Inserting a new key with a value taken from the same map: when the entry table has to grow, the value is read from the blob
    that was just released. *)
Definition full : list op := OEmplace (K "x") (i32 7) false :: map (fun i => OEmplace [97 + i] VMono false) [0; 1; 2; 3; 4; 5; 6; 7; 8; 9].
Theorem C41_self_alias_refuted : exists m s, reach m s /\ lookup m (K "x") = Some (shown (i32 7)) /\ exec m (OEmplace (K "z") (i32 7) true) = Bad.
Proof.
  destruct (run_view (fun _ => True) (fun m _ => (lookup m (K "x"), match exec m (OEmplace (K "z") (i32 7) true) with Bad => true | _ => false end)) full (Some (shown (i32 7)), true) (all_true _)) as (m & s & R & E); [vm_compute; reflexivity|].
  pose proof (f_equal fst E) as E1. pose proof (f_equal snd E) as E2. cbn [fst snd] in E1, E2. exists m, s. split; [exact R|]. split; [exact E1|]. destruct (exec m _); congruence.
Qed.
Print Assumptions C41_self_alias_refuted.

(** A string with a zero byte comes back shortened. *)
Theorem C41_zero_byte_refuted : exists m s m', reach m s /\ exec m (OEmplace (K "a") (VString [65; 0; 66]) false) = Ok (m', Inserted) /\ lookup m' (K "a") = Some (Item 14 2 0 [65]).
Proof.
  destruct (exec fresh8 (OEmplace (K "a") (VString [65; 0; 66]) false)) as [[m' r]| |] eqn:E; try (vm_compute in E; discriminate).
  assert (V : match exec fresh8 (OEmplace (K "a") (VString [65; 0; 66]) false) with Ok (x, y) => Some (y, lookup x (K "a")) | _ => None end = Some (Inserted, Some (Item 14 2 0 [65]))) by (vm_compute; reflexivity).
  rewrite E in V. injection V as -> V. exists fresh8, [], m'. split; [apply fresh8_reach|]. split; [exact E|exact V].
Qed.
Print Assumptions C41_zero_byte_refuted.

(** ** C42: the records of live values, the long keys and the free chunks lie in the used part of the pool and do not overlap. *)
Theorem C42_disjoint : forall m s, reach m s ->
  pairwise (flat_map regs (entries m) ++ freeBlocks m) /\ Forall (inPool m) (flat_map regs (entries m) ++ freeBlocks m) /\
  pused m <= pcap m /\ poff m + pcap m <= cap m /\ 32 + 48 * len (entries m) <= poff m.
Proof.
  intros m s R. destruct (reach_inv false _ m s ltac:(discriminate) R) as (fr & I & It).
  assert (F : freeBlocks m = fr).
  { unfold freeBlocks. apply chunks_fchain; [|exact (i_chain _ _ _ I)]. pose proof (blocks_fit (cap m) fr) as B.
    assert (P : pairwise fr). { pose proof (i_pair _ _ _ I) as P. cbn [app] in P. apply pairwise_app in P. tauto. }
    specialize (B P (i_min _ _ _ I)). assert (len fr <= cap m / 8). { apply B. rewrite Forall_forall. intros b Hb. destruct (inv_block m [] fr b I) as (_ & _ & Q & _); [cbn [app]; apply in_or_app; right; exact Hb|exact Q]. }
    pose proof (N.div_mod (cap m) 8 ltac:(lia)). unfold len in *. lia. }
  rewrite F. pose proof (i_pair _ _ _ I) as P. pose proof (i_in _ _ _ I) as Q. cbn [app] in P, Q. destruct (i_size _ _ _ I) as (S1 & _ & S3). destruct (i_slots _ _ _ I) as [_ S4]. split; [exact P|]. split; [exact Q|]. auto.
Qed.
Print Assumptions C42_disjoint.
Example C42_example : exists m s, reach m s /\ (flat_map regs (entries m), freeBlocks m, poff m, pused m) = ([(432, 48); (640, 112); (544, 37); (480, 32)], [(416, 16); (592, 48); (528, 16)], 416, 336).
Proof. apply (run_view _ (fun m _ => (flat_map regs (entries m), freeBlocks m, poff m, pused m)) ops41); [apply all_true|]. vm_compute. reflexivity. Qed.

(** ** C43: merge moves records byte for byte, with their unpadded length, so that later the slot counts as larger than it is.
    Merging {"a": "abcd", "b": "xyz"} into an empty map, erasing "a" and inserting "c" changes "b" to "". *)
Definition ops43 : list op := [ OEmplace (K "a") (str "abcd") false; OEmplace (K "b") (str "xyz") false ].
Theorem C43_refuted : exists o so m1 o1 m2 m3 r2 r3, reach o so /\ lookup o (K "b") = Some (Item 14 2 0 (K "xyz")) /\ merge fresh8 o = Ok (m1, o1) /\
  lookup m1 (K "b") = Some (Item 14 2 0 (K "xyz")) /\ exec m1 (OErase (K "a")) = Ok (m2, r2) /\ exec m2 (OEmplace (K "c") (i32 1) false) = Ok (m3, r3) /\ lookup m3 (K "b") = Some (Item 14 2 0 []).
Proof.
  destruct (run_view (fun _ => True) (fun o _ => (lookup o (K "b"),
     match merge fresh8 o with Ok (m1, _) => match exec m1 (OErase (K "a")) with Ok (m2, _) => match exec m2 (OEmplace (K "c") (i32 1) false) with Ok (m3, _) => Some (lookup m1 (K "b"), lookup m3 (K "b")) | _ => None end | _ => None end | _ => None end))
     ops43 (Some (Item 14 2 0 (K "xyz")), Some (Some (Item 14 2 0 (K "xyz")), Some (Item 14 2 0 []))) (all_true _)) as (o & so & R & E); [vm_compute; reflexivity|].
  pose proof (f_equal fst E) as E1. pose proof (f_equal snd E) as E2. cbn [fst snd] in E1, E2. clear E. destruct (merge fresh8 o) as [[m1 o1]| |] eqn:Em; try discriminate. destruct (exec m1 _) as [[m2 r2]| |] eqn:X2; try discriminate. destruct (exec m2 _) as [[m3 r3]| |] eqn:X3; try discriminate. injection E2 as E2 E3.
  exists o, so, m1, o1, m2, m3, r2, r3. auto 10.
Qed.
Print Assumptions C43_refuted.
(** Merging even a single short string leaves a record that ends behind the blob: reading it reads outside. *)
Theorem C43_overrun_refuted : exists o so m1 o1 e, reach o so /\ merge fresh8 o = Ok (m1, o1) /\ entries m1 = [e] /\ hasOffset (eFlags e) = true /\ cap m1 < ePOff e + dec (rd (mem m1) (ePOff e) 4).
Proof.
  destruct (run_view (fun _ => True) (fun o _ => match merge fresh8 o with Ok (m1, _) => match entries m1 with [e] => hasOffset (eFlags e) && (cap m1 <? ePOff e + dec (rd (mem m1) (ePOff e) 4)) | _ => false end | _ => false end)
     [OEmplace (K "a") (str "abcd") false] true (all_true _)) as (o & so & R & E); [vm_compute; reflexivity|].
  destruct (merge fresh8 o) as [[m1 o1]| |] eqn:Em; try discriminate. destruct (entries m1) as [|e [|? ?]] eqn:Ee; try discriminate. rewrite andb_true_iff, N.ltb_lt in E. destruct E as [E1 E2]. exists o, so, m1, o1, e. auto 10.
Qed.
Print Assumptions C43_overrun_refuted.

(** ** C46: insert_or_assign makes the value visible.
    Missing: the empty value for a key that is present ([legal] excludes it, and the claim fails there). *)
Theorem C46_assign_partial : forall m s k v al m' r, reach m s -> legal s (OAssign k v al) -> exec m (OAssign k v al) = Ok (m', r) -> r <> Refused -> lookup m' k = Some (shown v).
Proof.
  intros m s k v al m' r R L E Nr. assert (R' : reach m' (after s (OAssign k v al) r)) by (eapply reach_step; [exact R|exact Logic.I|exact L|exact E]).
  destruct (C41_refines m' _ R') as (_ & _ & A). rewrite A. apply after_assign. exact Nr.
Qed.
Print Assumptions C46_assign_partial.
Theorem C46_refuted : exists m s m', reach m s /\ exec m (OAssign (K "a") VMono false) = Ok (m', Existing) /\ lookup m' (K "a") = Some (shown (i32 5)) /\ shown VMono = Empty.
Proof.
  destruct (run_view (fun _ => True) (fun m _ => match exec m (OAssign (K "a") VMono false) with Ok (m', r) => Some (r, lookup m' (K "a")) | _ => None end) [OEmplace (K "a") (i32 5) false] (Some (Existing, Some (shown (i32 5)))) (all_true _)) as (m & s & R & E); [vm_compute; reflexivity|].
  destruct (exec m _) as [[m' r]| |] eqn:X; try discriminate. injection E as -> E. exists m, s, m'. auto.
Qed.
Print Assumptions C46_refuted.
Example C46_example : exists m s, reach m s /\ exists m', exec m (OAssign (K "gr:context") (str "new") false) = Ok (m', Existing) /\ lookup m' (K "gr:context") = Some (shown (str "new")).
Proof.
  destruct (run_view (fun _ => True) (fun m _ => match exec m (OAssign (K "gr:context") (str "new") false) with Ok (m', r) => Some (r, lookup m' (K "gr:context")) | _ => None end) ops41 (Some (Existing, Some (shown (str "new")))) (all_true _)) as (m & s & R & E); [vm_compute; reflexivity|].
  exists m, s. split; [exact R|]. destruct (exec m _) as [[m' r]| |]; try discriminate. injection E as -> E. eauto.
Qed.

(** ** C47: maps in caller storage (ValueMap::makeAt).
    No operation moves the map or writes outside its storage, and a refused one leaves the contents alone.  Missing: the bounded
    interface of ValueMapView. *)
Theorem C47_makeAt_partial : forall m s o, reach m s -> fixed m = true -> legal s o -> exec m o = Limit \/
  exists m' r, exec m o = Ok (m', r) /\ iterate m' = after s o r /\
    blobId m' = blobId m /\ cap m' = cap m /\ ecap m' = ecap m /\ poff m' = poff m /\ pcap m' = pcap m /\ fixed m' = true /\ (forall x, cap m <= x -> mem m' x = mem m x).
Proof.
  intros m s o R F L. destruct (C41_step m s o R L) as [E|(m' & r & E & It & _)]; [left; exact E|right]. exists m', r. split; [exact E|]. split; [exact It|].
  destruct (frame_exec m o (m', r) F E) as (A1 & A2 & A3 & A4 & A5 & A6 & A7). cbn [fst] in *. rewrite A1, F. auto 10.
Qed.
Print Assumptions C47_makeAt_partial.
Example C47_example : exists m m1 r, makeAt 500 4 16 (fun _ => 0) = Some m /\ exec m (OEmplace (K "a") (i32 5) false) = Ok (m1, Inserted) /\ exec m1 (OEmplace (K "b") (i32 6) false) = Ok r /\ snd r = Refused /\ iterate (fst r) = [(K "a", shown (i32 5))].
Proof.
  destruct (makeAt 500 4 16 (fun _ => 0)) as [m|] eqn:Em; [|discriminate Em].
  assert (V : match makeAt 500 4 16 (fun _ => 0) with Some m => match exec m (OEmplace (K "a") (i32 5) false) with Ok (m1, r1) => match exec m1 (OEmplace (K "b") (i32 6) false) with Ok r => Some (r1, snd r, iterate (fst r)) | _ => None end | _ => None end | None => None end = Some (Inserted, Refused, [(K "a", shown (i32 5))])) by (vm_compute; reflexivity).
  rewrite Em in V. destruct (exec m _) as [[m1 r1]| |] eqn:E1; try discriminate. destruct (exec m1 _) as [r| |] eqn:E2; try discriminate. injection V as -> V1 V2. exists m, m1, r. auto.
Qed.

(** ** C49: merging tag maps (updateMaps).
    The destination keeps every key; a key of the source gets the source's value; new keys follow in the order of the source.
    If an insertion is refused (fixed storage, or close to 4 GiB) each key still has one of its two values.
    Missing: source keys with the empty value that the destination has (the claim fails there), and very large maps. *)
Theorem C49_update_partial : forall src ss dest sd, reach src ss -> reach dest sd -> len sd + len ss <= 43690 -> (forall k, assoc k ss = Some Empty -> assoc k sd = None) ->
  updateMaps src dest = Limit \/ exists m' rs, updateMaps src dest = Ok (m', rs) /\ (exists s', reach m' s') /\
    (forall k, lookup m' k = lookup dest k \/ lookup m' k = lookup src k) /\
    (forall k, lookup src k = None -> lookup m' k = lookup dest k) /\
    (~ In Refused rs -> (forall k, lookup src k <> None -> lookup m' k = lookup src k) /\
       map fst (iterate m') = map fst (iterate dest) ++ filter (fun k => match lookup dest k with None => true | Some _ => false end) (map fst (iterate src))) /\
    (In Refused rs -> fixed dest = true \/ exists mid smid o, reach mid smid /\ In o (map (fun e => OAssign (readKey (mem src) e) (rawValue (mem src) e) false) (entries src)) /\ W32 <= pused mid + bytesOfOp o + 64).
Proof.
  intros src ss dest sd Rs Rd L C. destruct (C41_refines src ss Rs) as (Is & Ns & As). destruct (C41_refines dest sd Rd) as (Id & Nd & Ad).
  destruct (reach_inv false _ src ss ltac:(discriminate) Rs) as (fr & I & _). pose proof Is as Is'. rewrite iterate_obs in Is'.
  destruct (update_loop (mem src) (entries src) dest sd (i_ent _ _ _ I) (i_keys _ _ _ I) Rd) as [E|(m' & rs & s' & E & R' & Fx & P1 & P2 & P3 & P4)].
  - rewrite <- Is' in L. unfold len in *. rewrite map_length in L. exact L.
  - rewrite Is'. intros (k & A & B). auto.
  - left. exact E.
  - rewrite Is' in *. destruct (C41_refines m' s' R') as (I' & _ & A'). right. exists m', rs. split; [exact E|]. split; [eauto|]. split; [intros k; rewrite A', As, Ad; apply P1|]. split; [intros k; rewrite A', As, Ad; apply P2|]. split; [|exact P4].
    intros H. destruct (P3 H) as [Q1 Q2]. split; [intros k; rewrite A', As; apply Q1|]. rewrite I', Is, Id, Q2. f_equal. apply filter_ext. intros k. rewrite Ad. reflexivity.
Qed.
Print Assumptions C49_update_partial.
Theorem C49_refuted : exists src ss dest sd m' rs, reach src ss /\ reach dest sd /\ updateMaps src dest = Ok (m', rs) /\ lookup src (K "a") = Some Empty /\ lookup m' (K "a") = Some (shown (i32 5)).
Proof.
  destruct (run_view (fun _ => True) (fun d _ => match run fresh8 [] [OEmplace (K "a") VMono false] with Some (o, _) => match updateMaps o d with Ok (m', _) => Some (lookup o (K "a"), lookup m' (K "a")) | _ => None end | _ => None end)
    [OEmplace (K "a") (i32 5) false] (Some (Some Empty, Some (shown (i32 5)))) (all_true _)) as (d & sd & R & E); [vm_compute; reflexivity|].
  destruct (run fresh8 [] [OEmplace (K "a") VMono false]) as [[o so]|] eqn:Eo; [|discriminate]. pose proof (run_reach (fun _ => True) _ (all_true _) _ _ _ _ (fresh8_reach _) Eo) as Ro. destruct (updateMaps o d) as [[m' rs]| |] eqn:Eu; try discriminate. injection E as E1 E2.
  exists o, so, d, sd, m', rs. auto 10.
Qed.
Print Assumptions C49_refuted.
Example C49_example : exists src ss dest sd m' rs, reach src ss /\ reach dest sd /\ updateMaps src dest = Ok (m', rs) /\ iterate m' = [(K "a", shown (str "two")); (K "b", shown (i32 2)); (longA, shown (i32 9))].
Proof.
  destruct (run_view (fun _ => True) (fun d _ => match run fresh8 [] [OEmplace longA (i32 9) false; OEmplace (K "a") (str "two") false] with Some (o, _) => match updateMaps o d with Ok (m', _) => Some (iterate m') | _ => None end | _ => None end)
    [OEmplace (K "a") (i32 5) false; OEmplace (K "b") (i32 2) false] (Some [(K "a", shown (str "two")); (K "b", shown (i32 2)); (longA, shown (i32 9))]) (all_true _)) as (d & sd & R & E); [vm_compute; reflexivity|].
  destruct (run fresh8 [] [OEmplace longA (i32 9) false; OEmplace (K "a") (str "two") false]) as [[o so]|] eqn:Eo; [|discriminate]. pose proof (run_reach (fun _ => True) _ (all_true _) _ _ _ _ (fresh8_reach _) Eo) as Ro. destruct (updateMaps o d) as [[m' rs]| |] eqn:Eu; [|discriminate E|discriminate E]. apply some_inj in E.
  exists o, so, d, sd, m', rs. split; [exact Ro|]. split; [exact R|]. split; [exact Eu|exact E].
Qed.

(** ** C51: value records are aligned to 16 bytes.
    Missing: long keys, whose freed bytes are reused for records (the claim fails there). *)
Theorem C51_aligned_partial : forall m s, reachBy shortKeys m s -> Forall (fun e => hasOffset (eFlags e) = true -> ePOff e mod 16 = 0) (entries m).
Proof.
  intros m s R. destruct (reach_inv true _ m s (fun _ o H => H) R) as (fr & I & _). destruct (i_al _ _ _ I eq_refl) as (A & _ & _). cbn [app] in A. apply Forall_app in A. destruct A as [A _]. rewrite Forall_forall in *. intros e He Ho.
  assert (X : In (ePOff e, alignToRecord (ePLen e)) (inUse m)). { unfold inUse. apply in_flat_map. exists e. split; [exact He|]. unfold regs. rewrite Ho. left. reflexivity. }
  apply A in X. unfold aligned in X. cbn in X. tauto.
Qed.
Print Assumptions C51_aligned_partial.
Theorem C51_refuted : exists m s e, reach m s /\ In e (entries m) /\ hasOffset (eFlags e) = true /\ ePOff e mod 16 = 5.
Proof.
  destruct (run_view (fun _ => True) (fun m _ => match entries m with [_; e] => (hasOffset (eFlags e), ePOff e mod 16) | _ => (false, 0) end)
    [OEmplace longA VMono false; OEmplace longB VMono false; OErase longB; OEmplace (K "gr:sample_rate") (i32 9) false] (true, 5) (all_true _)) as (m & s & R & E); [vm_compute; reflexivity|].
  destruct (entries m) as [|a [|e [|? ?]]] eqn:Ee; try discriminate. injection E as E1 E2. exists m, s, e. rewrite Ee. split; [exact R|]. split; [right; left; reflexivity|]. auto.
Qed.
Print Assumptions C51_refuted.
Example C51_example : exists m s, reachBy shortKeys m s /\ map ePOff (entries m) = [1392; 1360; 1328].
Proof.
  apply (run_view shortKeys (fun m _ => map ePOff (entries m)) [OEmplace (K "a") (str "some text") false; OEmplace (K "b") (VWide (repeat 3 16)) false; OAssign (K "a") (i32 3) false; OEmplace (K "c") (str "x") false]); [|vm_compute; reflexivity].
  repeat constructor; intros [_ H]; vm_compute in H; discriminate.
Qed.
