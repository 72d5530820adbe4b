(* Proofs about the count by the clock. *)

From Coq Require Import ZArith Bool Lia List.
From Verif Require Import WallModel WallSpec.
Import ListNotations.

Local Open Scope Z_scope.

Lemma giga_pos : 0 < giga. Proof. reflexivity. Qed.

Lemma due_facts : forall rate chunk last now room d, 0 < rate -> 0 <= chunk -> 0 <= room -> last <= now ->
  let '(last', n) := due rate chunk last now room d in
  0 <= n /\ n <= chunk /\ n <= room /\ last <= last' <= now /\ n * giga <= (now - last) * rate
  /\ n * giga <= (last' - last + 1) * rate
  /\ (d = false -> (last' - last) * rate <= n * giga)
  /\ (d = false -> n < chunk -> n < room -> (now - last') * rate < giga + rate).
Proof.
  intros rate chunk last now room d Hr Hc Ho Hn. unfold due. assert (G := giga_pos).
  rewrite Z.max_r by lia. set (e := (now - last) * rate). assert (He : 0 <= e) by (unfold e; nia).
  assert (D1 := Z.mul_div_le e giga G). assert (D2 := Z.mul_succ_div_gt e giga G).
  assert (D0 : 0 <= e / giga) by (apply Z.div_pos; lia).
  set (n := Z.min (e / giga) (Z.min chunk room)).
  assert (N : 0 <= n /\ n <= chunk /\ n <= room /\ n <= e / giga) by lia.
  assert (NE : n * giga <= e) by nia.
  assert (Q1 := Z.mul_div_le (n * giga) rate Hr). assert (Q2 := Z.mul_succ_div_gt (n * giga) rate Hr).
  assert (Q0 : 0 <= n * giga / rate) by (apply Z.div_pos; nia).
  assert (Q3 : n * giga / rate <= now - last).
  { apply Z.div_le_upper_bound; [exact Hr|]. unfold e in NE. lia. }
  assert (F : n < chunk -> n < room -> n = e / giga) by lia.
  clearbody n. destruct d.
  - repeat split; try discriminate; try lia; unfold e in NE; nia.
  - destruct (Z.ltb_spec 0 n) as [P | P].
    + repeat split; try lia; intros _ A1 A2; specialize (F A1 A2); unfold e in *; subst n; nia.
    + assert (n = 0) by lia. subst n. repeat split; try lia; try nia;
        intros _ A1 A2; specialize (F A1 A2); unfold e in *; nia.
Qed.

Lemma until_cons : forall from a l, until from (a :: l) = until (at_ a) l.
Proof.
  intros from a l. unfold until. cbn [map]. generalize (map at_ l) as m. intros m.
  revert a. induction m as [|x m IH]; intros a; [reflexivity|]. change (last (at_ a :: x :: m) from) with (last (x :: m) from).
  destruct m as [|y m]; [reflexivity|]. specialize (IH a). cbn [last] in *. exact IH.
Qed.

Lemma asks_facts : forall rate chunk l lst from, 0 < rate -> 0 <= chunk -> lst <= from -> onwards from l ->
  let '(lst', n) := asks rate chunk lst l in
  0 <= n /\ lst <= lst' <= until from l /\ n * giga <= (lst' - lst + Z.of_nat (length l)) * rate
  /\ ((forall a, In a l -> drop a = false) -> (lst' - lst) * rate <= n * giga).
Proof.
  intros rate chunk l; induction l as [|a l IH]; intros lst from Hr Hc Hf Ho; cbn [asks].
  - unfold until; cbn. repeat split; try lia.
  - destruct Ho as (O1 & O2 & O3). assert (D := due_facts rate chunk lst (at_ a) (room a) (drop a) Hr Hc O2 ltac:(lia)).
    destruct (due rate chunk lst (at_ a) (room a) (drop a)) as [l1 n]. destruct D as (D1 & _ & _ & D2 & _ & D3 & D4 & _).
    specialize (IH l1 (at_ a) Hr Hc ltac:(lia) O3). destruct (asks rate chunk l1 l) as [l2 m].
    destruct IH as (I1 & I2 & I3 & I4). rewrite until_cons.
    split; [lia|]. split; [lia|]. split.
    + cbn [length]. rewrite Nat2Z.inj_succ. nia.
    + intros H. specialize (D4 (H a (or_introl eq_refl))). specialize (I4 (fun x Hx => H x (or_intror Hx))). nia.
Qed.

Lemma asks_app : forall rate chunk a b lst,
  asks rate chunk lst (a ++ b) = let '(l1, n) := asks rate chunk lst a in let '(l2, m) := asks rate chunk l1 b in (l2, n + m).
Proof.
  intros rate chunk a; induction a as [|x a IH]; intros b lst; cbn [app asks].
  - destruct (asks rate chunk lst b); reflexivity.
  - destruct (due rate chunk lst (at_ x) (room x) (drop x)) as [l1 n]. rewrite IH.
    destruct (asks rate chunk l1 a) as [l2 m]. destruct (asks rate chunk l2 b) as [l3 k]. f_equal. lia.
Qed.

Lemma onwards_app : forall a b from, onwards from (a ++ b) -> onwards from a /\ onwards (until from a) b.
Proof.
  induction a as [|x a IH]; intros b from H; cbn [app onwards] in *; [unfold until; cbn; auto|].
  destruct H as (H1 & H2 & H3). destruct (IH b _ H3) as [A B]. rewrite until_cons. auto.
Qed.

Lemma asks_starved : forall rate chunk l from, 0 < rate -> 0 <= chunk -> onwards from l -> frequent rate from l ->
  (forall a, In a l -> drop a = true) -> snd (asks rate chunk from l) = 0.
Proof.
  intros rate chunk l; induction l as [|a l IH]; intros from Hr Hc Ho Hf Hd; cbn [asks]; [reflexivity|].
  destruct Ho as (O1 & O2 & O3). destruct Hf as [F1 F2].
  assert (E : due rate chunk from (at_ a) (room a) (drop a) = (at_ a, 0)).
  { unfold due. rewrite (Hd a (or_introl eq_refl)). rewrite Z.max_r by lia.
    rewrite Z.div_small by nia. rewrite Z.min_l by lia. reflexivity. }
  rewrite E. specialize (IH (at_ a) Hr Hc O3 F2 (fun x Hx => Hd x (or_intror Hx))).
  destruct (asks rate chunk (at_ a) l) as [l2 m]. cbn [snd] in *. lia.
Qed.
