(* Proofs about saving and loading graphs. *)

From Coq Require Import ZArith Bool Lia String List.
From Verif Require Import GrcModel GrcSpec.
Import ListNotations.

Local Open Scope string_scope.
Local Open Scope Z_scope.

Lemma all_Forall2 : forall (A B : Type) (f : A -> option B) l ys,
  all f l = Some ys <-> Forall2 (fun x y => f x = Some y) l ys.
Proof.
  intros A B f l; induction l as [|x l IH]; intros ys; cbn [all].
  - split; intros H; [assert (ys = []) by congruence; subst; constructor|inversion H; reflexivity].
  - destruct (f x) as [y|] eqn:E.
    + destruct (all f l) as [zs|] eqn:E2.
      * split; intros H.
        -- assert (ys = y :: zs) by congruence; subst. constructor; [exact E|]. apply IH. reflexivity.
        -- inversion H as [|a b c d Ha Hb]; subst. apply IH in Hb. congruence.
      * split; intros H; [congruence|].
        inversion H as [|a b c d Ha Hb]; subst. apply IH in Hb. congruence.
    + split; intros H; [congruence|]. inversion H; subst; congruence.
Qed.

Lemma all_exists : forall (A B : Type) (f : A -> option B) (R : A -> B -> Prop) l,
  (forall x, In x l -> exists y, f x = Some y /\ R x y) -> exists ys, all f l = Some ys /\ Forall2 R l ys.
Proof.
  intros A B f R l; induction l as [|x l IH]; intros H.
  - exists []; split; [reflexivity|constructor].
  - destruct (H x (or_introl eq_refl)) as (y & Hy & Ry).
    destruct (IH (fun z Hz => H z (or_intror Hz))) as (ys & Hys & Rys).
    exists (y :: ys); cbn [all]; rewrite Hy, Hys; split; [reflexivity|constructor; assumption].
Qed.

Lemma all_map : forall (A B C : Type) (g : A -> B) (f : B -> option C) l,
  all f (map g l) = all (fun x => f (g x)) l.
Proof.
  intros A B C g f l; induction l as [|x l IH]; cbn [all map]; [reflexivity|]. rewrite IH. reflexivity.
Qed.

Lemma all_id : forall (A : Type) (f : A -> option A) l,
  (forall x, In x l -> f x = Some x) -> all f l = Some l.
Proof.
  intros A f l; induction l as [|x l IH]; intros H; cbn [all]; [reflexivity|].
  rewrite (H x (or_introl eq_refl)), IH; [reflexivity|intros y Hy; apply H; right; exact Hy].
Qed.

Lemma all_none : forall (A B : Type) (f : A -> option B) l x, In x l -> f x = None -> all f l = None.
Proof.
  intros A B f l x; induction l as [|y l IH]; intros Hin Hf; [destruct Hin|].
  cbn [all]. destruct Hin as [-> | Hin]; [rewrite Hf; reflexivity|].
  destruct (f y); [|reflexivity]. rewrite (IH Hin Hf). reflexivity.
Qed.

Lemma F2_map_l : forall (A B C : Type) (g : A -> B) (R : B -> C -> Prop) l ys,
  Forall2 R (map g l) ys <-> Forall2 (fun x y => R (g x) y) l ys.
Proof.
  intros A B C g R l; induction l as [|x l IH]; intros ys; cbn [map]; split; intros H; inversion H; subst;
    constructor; try assumption; apply IH; assumption.
Qed.

Lemma F2_imp : forall (A B : Type) (R Q : A -> B -> Prop) l ys,
  (forall x y, R x y -> Q x y) -> Forall2 R l ys -> Forall2 Q l ys.
Proof. intros A B R Q l ys H F; induction F; constructor; auto. Qed.

(* the last place of a name *)
Definition lastIn (nms : list string) (s : string) (i : nat) : Prop :=
  (i < List.length nms)%nat /\ nth i nms "" = s /\ forall j, (i < j < List.length nms)%nat -> nth j nms "" <> s.

Lemma lastIn_unique : forall nms s i j, lastIn nms s i -> lastIn nms s j -> i = j.
Proof.
  intros nms s i j (Hi & Ei & Li) (Hj & Ej & Lj).
  destruct (Nat.lt_trichotomy i j) as [H | [H | H]]; [|exact H|].
  - exfalso; apply (Li j); [lia|exact Ej].
  - exfalso; apply (Lj i); [lia|exact Ei].
Qed.

Lemma created_cases : forall nms k s acc,
  (exists i, lastIn nms s i /\ created k s nms acc = Some (k + i)%nat) \/
  (~ In s nms /\ created k s nms acc = acc).
Proof.
  induction nms as [|n nms IH]; intros k s acc; cbn [created].
  - right; split; [intros []|reflexivity].
  - destruct (IH (S k) s (if String.eqb s n then Some k else acc)) as [(i & (Hl & Hn & Hm) & E) | (Hn & E)].
    + left; exists (S i); split.
      * split; [cbn [List.length]; lia|]; split; [exact Hn|].
        intros j Hj. destruct j as [|j]; [lia|]. cbn [nth]. apply Hm. cbn [List.length] in Hj. lia.
      * rewrite E. f_equal; lia.
    + destruct (String.eqb_spec s n) as [-> | D].
      * left; exists 0%nat; split.
        -- split; [cbn [List.length]; lia|]; split; [reflexivity|].
           intros j Hj. destruct j as [|j]; [lia|]. cbn [nth]. intros Hc. apply Hn. rewrite <- Hc.
           apply nth_In. cbn [List.length] in Hj. lia.
        -- rewrite E. f_equal; lia.
      * right; split; [|exact E]. intros [Hc | Hc]; [congruence|exact (Hn Hc)].
Qed.

Lemma created_iff : forall nms s i, created 0 s nms None = Some i <-> lastIn nms s i.
Proof.
  intros nms s i.
  destruct (created_cases nms 0 s None) as [(k & Hk & E) | (Hn & E)]; rewrite E; cbn [Nat.add]; split; intros H.
  - assert (k = i) by congruence; subst; exact Hk.
  - rewrite (lastIn_unique _ _ _ _ Hk H). reflexivity.
  - congruence.
  - exfalso; apply Hn. destruct H as (Hl & Hs & _). rewrite <- Hs. apply nth_In, Hl.
Qed.

Lemma names_iff : forall bs v k, names bs v k <-> loadEnd (map nameOf bs) v = Some k.
Proof.
  intros bs v k; unfold names, loadEnd; split.
  - intros (s & -> & Hs & Hk & Hn & Hl).
    apply String.eqb_neq in Hs. rewrite Hs. apply created_iff.
    split; [rewrite map_length; exact Hk|]; split; [exact Hn|]. intros j Hj; apply Hl. rewrite map_length in Hj. exact Hj.
  - destruct v as [t z|s|l|m]; try discriminate.
    destruct (String.eqb_spec s "") as [-> | Hs]; [discriminate|]. intros H. apply created_iff in H.
    destruct H as (Hk & Hn & Hl). rewrite map_length in Hk, Hl.
    exists s; split; [reflexivity|]; split; [exact Hs|]; split; [exact Hk|]; split; [exact Hn|exact Hl].
Qed.

Lemma port_iff : forall v p, port v p <-> loadPort v = Some p.
Proof.
  intros v p; split.
  - intros H; destruct H as [s|i Hi|t1 t2 i j H1 H2 Hi Hj]; unfold loadPort.
    + reflexivity.
    + apply Z.leb_le in Hi. rewrite Hi. reflexivity.
    + apply Z.leb_le in Hi. apply Z.leb_le in Hj.
      destruct H1 as [-> | ->], H2 as [-> | ->]; cbn [all asI64]; rewrite Hi, Hj; reflexivity.
  - unfold loadPort; destruct v as [t z|s|l|m].
    + destruct t; try discriminate. destruct (Z.leb_spec 0 z) as [Hz|]; [|discriminate].
      intros H; assert (p = PIdx z) by congruence; subst; constructor; exact Hz.
    + intros H; assert (p = PName s) by congruence; subst; constructor.
    + destruct (all asI64 l) as [ys|] eqn:E; [|discriminate]. apply all_Forall2 in E.
      destruct E as [|v1 i l1 ys1 E1 E]; [discriminate|].
      destruct E as [|v2 j l2 ys2 E2 E]; [discriminate|].
      destruct E as [|v3 k l3 ys3 E3 E]; [|discriminate].
      destruct (Z.leb_spec 0 i) as [Hi|]; [|discriminate].
      destruct (Z.leb_spec 0 j) as [Hj|]; [|discriminate].
      cbn [andb]. intros H; assert (p = PSub i j) by congruence; subst.
      assert (exists t1, v1 = VNum t1 i /\ (t1 = I64 \/ t1 = U32)) as (t1 & -> & T1).
      { destruct v1 as [t z|s|l|m]; try discriminate. destruct t; try discriminate; cbn [asI64] in E1;
          assert (z = i) by congruence; subst; eauto. }
      assert (exists t2, v2 = VNum t2 j /\ (t2 = I64 \/ t2 = U32)) as (t2 & -> & T2).
      { destruct v2 as [t z|s|l|m]; try discriminate. destruct t; try discriminate; cbn [asI64] in E2;
          assert (z = j) by congruence; subst; eauto. }
      constructor; assumption.
    + discriminate.
Qed.

Lemma loadPort_save : forall p, okPort p -> loadPort (savePort p) = Some p.
Proof.
  intros p H; apply port_iff; destruct p as [i|i j|s]; cbn [savePort okPort] in *.
  - constructor; lia.
  - constructor; try (left; reflexivity); lia.
  - constructor.
Qed.

Lemma connection_iff : forall dflt bs v e0,
  connection bs v e0 <->
  exists e, loadEdge dflt (map nameOf bs) v = Some e /\ sameEnds e0 e.
Proof.
  intros dflt bs v e0; unfold connection, sameEnds; split.
  - intros (a & b & c & d & r & -> & Ha & Hb & Hc & Hd).
    apply names_iff in Ha, Hc. apply port_iff in Hb, Hd.
    unfold loadEdge; rewrite Ha, Hb, Hc, Hd. eexists; split; [reflexivity|]. repeat split.
  - intros (e & He & H1 & H2 & H3 & H4). unfold loadEdge in He.
    destruct v as [t z|s|l|m]; try discriminate.
    destruct l as [|a [|b [|c [|d r]]]]; try discriminate.
    destruct (loadEnd (map nameOf bs) a) as [s|] eqn:Ea; [|discriminate].
    destruct (loadPort b) as [sp|] eqn:Eb; [|discriminate].
    destruct (loadEnd (map nameOf bs) c) as [t|] eqn:Ec; [|discriminate].
    destruct (loadPort d) as [tp|] eqn:Ed; [|discriminate].
    set (m := match r with [] => undef | x :: _ => loadSize x end) in He.
    assert (e = connect dflt s sp t tp m) by congruence; subst e; cbn [connect eS eSP eD eDP] in *; subst.
    exists a, b, c, d, r; split; [reflexivity|].
    split; [apply names_iff; exact Ea|]; split; [apply port_iff; exact Eb|].
    split; [apply names_iff; exact Ec|apply port_iff; exact Ed].
Qed.

(* what is left of an edge *)
Definition kept (bs : list blk) (e e' : edge) : Prop :=
  lastOf bs (eS e) (eS e') /\ lastOf bs (eD e) (eD e') /\ eSP e' = eSP e /\ eDP e' = eDP e /\
  eMin e' = eMin e mod 2 ^ 32 /\ eW e' = 0 /\ eN e' = "unnamed edge".

Lemma lastOf_end : forall bs i, (i < List.length bs)%nat -> nth i (map nameOf bs) "" <> "" ->
  exists k, loadEnd (map nameOf bs) (VStr (nth i (map nameOf bs) "")) = Some k /\ lastOf bs i k.
Proof.
  intros bs i Hi Hn.
  destruct (created_cases (map nameOf bs) 0 (nth i (map nameOf bs) "") None) as [(k & Hk & E) | (H & _)].
  - exists k; split.
    + unfold loadEnd. apply String.eqb_neq in Hn. rewrite Hn. exact E.
    + destruct Hk as (A & B & C). rewrite map_length in A, C.
      split; [exact A|]; split; [exact B|exact C].
  - exfalso; apply H; apply nth_In. rewrite map_length. exact Hi.
Qed.

Lemma edge_kept : forall dflt bs e, okEdge bs e ->
  exists e', loadEdge dflt (map nameOf bs) (saveEdge (map nameOf bs) e) = Some e' /\ kept bs e e'.
Proof.
  intros dflt bs e (Hs & Hd & Hsp & Hdp & Hm & Ns & Nd).
  destruct (lastOf_end bs (eS e) Hs Ns) as (s & Es & Ls).
  destruct (lastOf_end bs (eD e) Hd Nd) as (d & Ed & Ld).
  assert (Hmin : 0 <= eMin e mod 2 ^ 32 < 2 ^ 32) by (apply Z.mod_pos_bound; lia).
  exists (mkE s (eSP e) d (eDP e) (eMin e mod 2 ^ 32) 0 "unnamed edge"); split.
  - unfold saveEdge. replace (eMin e =? undef) with false by (symmetry; apply Z.eqb_neq; unfold undef; lia).
    cbn [app loadEdge]. rewrite Es, Ed, (loadPort_save _ Hsp), (loadPort_save _ Hdp).
    unfold connect; cbn [loadSize].
    rewrite (Z.mod_small (eMin e mod 2 ^ 32) (2 ^ 64)) by lia.
    replace (eMin e mod 2 ^ 32 =? undef) with false by (symmetry; apply Z.eqb_neq; unfold undef; lia).
    reflexivity.
  - unfold kept; cbn [eS eSP eD eDP eMin eW eN]. repeat split; assumption || reflexivity || (apply Ls) || (apply Ld).
Qed.

Definition unmap (v : val) : vmap := match v with VMap m => m | _ => [] end.
Lemma saveBlock_map : forall b, saveBlock b = VMap (unmap (saveBlock b)).
Proof. intros [ty nm ps cx|nm bs es ex]; reflexivity. Qed.
Lemma mapsOf_save : forall bs, mapsOf (map saveBlock bs) = map (fun b => unmap (saveBlock b)) bs.
Proof.
  induction bs as [|b bs IH]; [reflexivity|]. cbn [map]. rewrite saveBlock_map. cbn [mapsOf unmap]. rewrite IH.
  reflexivity.
Qed.

Lemma loadCtx_save : forall c, fst (fst c) <> "" -> loadCtx (saveCtx c) = Some c.
Proof.
  intros [[c t] p] H; cbn [fst] in H. apply String.eqb_neq in H.
  unfold saveCtx, loadCtx; cbn [look fst snd String.eqb Ascii.eqb Bool.eqb]. rewrite H. reflexivity.
Qed.

Lemma loadBlock_save : forall known sub b, plain known b -> loadBlock known sub (unmap (saveBlock b)) = Some b.
Proof.
  intros known sub [ty nm ps cx|nm bs es ex]; cbn [plain]; [|intros []].
  intros (Hty & Hk & Hn & Hc). apply String.eqb_neq in Hty.
  unfold loadBlock, getName.
  cbn [saveBlock unmap look String.eqb Ascii.eqb Bool.eqb]. rewrite Hn. cbn [asStr].
  rewrite Hty, Hk. rewrite all_map, all_id; [reflexivity|].
  intros c Hin. apply loadCtx_save, Hc, Hin.
Qed.

Lemma loadBlock_sub : forall known sub nm bs es ex, loadBlock known sub (unmap (saveBlock (Sub nm bs es ex))) = None.
Proof. intros; reflexivity. Qed.

Lemma load_save : forall known sub dflt bs es, okGraph known (bs, es) ->
  exists es', loadGraph known sub dflt (saveGraph (bs, es)) = Some (bs, es') /\ Forall2 (kept bs) es es'.
Proof.
  intros known sub dflt bs es (Hb & He); cbn [fst snd] in Hb, He.
  destruct (all_exists _ _ (fun e => loadEdge dflt (map nameOf bs) (saveEdge (map nameOf bs) e)) (kept bs) es
              (fun e Hin => edge_kept dflt bs e (He e Hin))) as (es' & E & F).
  exists es'; split; [|exact F].
  unfold loadGraph, saveGraph, field; cbn [look String.eqb Ascii.eqb Bool.eqb fst snd].
  rewrite mapsOf_save, all_map, all_id by (intros b Hin; apply loadBlock_save, Hb, Hin).
  rewrite all_map, E. reflexivity.
Qed.

Lemma lastOf_distinct : forall bs i k, NoDup (map nameOf bs) -> (i < List.length bs)%nat -> lastOf bs i k -> k = i.
Proof.
  intros bs i k Hnd Hi (Hk & E & _).
  apply (proj1 (NoDup_nth (map nameOf bs) "")) in E; [exact E|exact Hnd| |]; rewrite map_length; assumption.
Qed.

Lemma load_inv : forall known sub dflt m bs es, loadGraph known sub dflt m = Some (bs, es) ->
  Forall2 (fun x b => loadBlock known sub x = Some b) (mapsOf (field "blocks" m)) bs /\
  Forall2 (fun v e => loadEdge dflt (map nameOf bs) v = Some e) (field "connections" m) es.
Proof.
  intros known sub dflt m bs es H; unfold loadGraph in H.
  destruct (all (loadBlock known sub) (mapsOf (field "blocks" m))) as [bs'|] eqn:E1; [|discriminate].
  destruct (all (loadEdge dflt (map nameOf bs')) (field "connections" m)) as [es'|] eqn:E2; [|discriminate].
  assert (bs' = bs /\ es' = es) as [-> ->] by (split; congruence).
  split; apply all_Forall2; assumption.
Qed.

Lemma mapsOf_maps : forall ms, mapsOf (map VMap ms) = ms.
Proof. induction ms as [|m ms IH]; cbn [map mapsOf]; [reflexivity|rewrite IH; reflexivity]. Qed.
