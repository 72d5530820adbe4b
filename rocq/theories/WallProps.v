(* Theorems about the count by the clock. *)

From Coq Require Import ZArith Bool Lia List.
From Verif Require Import WallModel WallSpec WallProofs.
Import ListNotations.

Local Open Scope Z_scope.

Definition tick (n : Z) : ask := mkAsk n 1000 false.

(* ------------------------------------------------------------------ C222 *)

(* However often and with whatever room it is asked, in total no more samples
   are counted than fit into the time, but for one nanosecond per call. *)
Theorem C222_not_too_many : forall rate chunk start l, 0 < rate -> 0 <= chunk -> onwards start l ->
  snd (asks rate chunk start l) * giga <= (until start l - start + Z.of_nat (length l)) * rate.
Proof.
  intros rate chunk start l Hr Hc Ho. assert (A := asks_facts rate chunk l start start Hr Hc (Z.le_refl _) Ho).
  destruct (asks rate chunk start l) as [l' n]. destruct A as (A1 & A2 & A3 & _). cbn [snd]. nia.
Qed.
Print Assumptions C222_not_too_many.

(* Without dropping none is lost: once a call is limited neither by the chunk
   nor by the room, less than one sample and one nanosecond is missing, however
   late the calls before were. *)
Theorem C222_catches_up : forall rate chunk start l now room, 0 < rate -> 0 <= chunk ->
  onwards start (l ++ [mkAsk now room false]) -> (forall a, In a l -> drop a = false) ->
  let n := snd (asks rate chunk start l) in
  let m := snd (asks rate chunk start (l ++ [mkAsk now room false])) in
  m - n < chunk -> m - n < room -> (now - start) * rate < (m + 1) * giga + rate.
Proof.
  intros rate chunk start l now room Hr Hc Ho Hd n m. destruct (onwards_app _ _ _ Ho) as [O1 O2].
  cbn [onwards at_ WallModel.room] in O2. destruct O2 as (O2 & O3 & _).
  unfold m, n. clear m n. rewrite asks_app.
  assert (A := asks_facts rate chunk l start start Hr Hc (Z.le_refl _) O1).
  destruct (asks rate chunk start l) as [l1 n]. destruct A as (A1 & A2 & _ & A3). specialize (A3 Hd).
  cbn [asks at_ WallModel.room drop].
  assert (D := due_facts rate chunk l1 now room false Hr Hc O3 ltac:(lia)).
  destruct (due rate chunk l1 now room false) as [l2 k]. destruct D as (_ & _ & _ & D1 & _ & _ & D2 & D3).
  cbn [snd]. intros B1 B2. specialize (D3 eq_refl ltac:(lia) ltac:(lia)). specialize (D2 eq_refl). nia.
Qed.
Print Assumptions C222_catches_up.

(* A single call never gives more than the chunk or the room. *)
Theorem C222_limits : forall rate chunk last now room d, 0 < rate -> 0 <= chunk -> 0 <= room -> last <= now ->
  0 <= snd (due rate chunk last now room d) <= Z.min chunk room.
Proof.
  intros rate chunk last now room d Hr Hc Ho Hn. assert (D := due_facts rate chunk last now room d Hr Hc Ho Hn).
  destruct (due rate chunk last now room d) as [l n]. cbn [snd]. lia.
Qed.
Print Assumptions C222_limits.

(* Refuted: no more samples than fit into the time.  The cut of each step to
   whole nanoseconds adds up. *)
Theorem C222_rate_kept_refuted : exists rate chunk start l, 0 < rate /\ 0 <= chunk /\ onwards start l /\
  (until start l - start) * rate + giga < snd (asks rate chunk start l) * giga.
Proof.
  exists 600000000, 100, 0, (map (fun i => tick (2 + Z.of_nat i)) (seq 0 10)). split; [lia|]. split; [lia|]. split.
  - cbn. lia.
  - vm_compute. reflexivity.
Qed.
Print Assumptions C222_rate_kept_refuted.

Example C222_case :
  onwards 0 (map tick [3000000; 10000000; 250000000; 260000000; 270000000])
  /\ asks 1000 100 0 (map tick [3000000; 10000000; 250000000; 260000000; 270000000]) = (270000000, 270)
  /\ asks 1000 100 0 (map tick [3000000; 10000000; 250000000]) = (110000000, 110).
Proof. split; [cbn; lia|]. vm_compute. auto. Qed.

(* ------------------------------------------------------------------ C223 *)

(* With dropIfBehind no more samples are counted in a call than the time since
   the call before holds. *)
Theorem C223_no_catching_up : forall rate chunk start l a b, 0 < rate -> 0 <= chunk ->
  onwards start (l ++ [a; b]) -> drop a = true ->
  (snd (asks rate chunk start (l ++ [a; b])) - snd (asks rate chunk start (l ++ [a]))) * giga <= (at_ b - at_ a) * rate.
Proof.
  intros rate chunk start l a b Hr Hc Ho Hd. destruct (onwards_app _ _ _ Ho) as [O1 O2].
  cbn [onwards] in O2. destruct O2 as (O2 & O3 & O4 & O5 & _).
  rewrite !asks_app. assert (A := asks_facts rate chunk l start start Hr Hc (Z.le_refl _) O1).
  destruct (asks rate chunk start l) as [l1 n]. cbn [asks].
  assert (E : fst (due rate chunk l1 (at_ a) (room a) (drop a)) = at_ a) by (unfold due; rewrite Hd; reflexivity).
  destruct (due rate chunk l1 (at_ a) (room a) (drop a)) as [l2 k]. cbn [fst] in E. subst l2.
  assert (D := due_facts rate chunk (at_ a) (at_ b) (room b) (drop b) Hr Hc O5 O4).
  destruct (due rate chunk (at_ a) (at_ b) (room b) (drop b)) as [l3 m]. destruct D as (_ & _ & _ & _ & D & _).
  cbn [snd]. nia.
Qed.
Print Assumptions C223_no_catching_up.

(* Refuted: the rate is kept if the calls are in time.  Asked more often than
   once per sample, the source never counts a sample, however long. *)
Theorem C223_in_time_refuted : forall rate chunk start l, 0 < rate -> 0 <= chunk -> onwards start l ->
  frequent rate start l -> (forall a, In a l -> drop a = true) -> snd (asks rate chunk start l) = 0.
Proof. intros rate chunk start l. apply asks_starved. Qed.
Print Assumptions C223_in_time_refuted.

Example C223_case :
  let l := map (fun i => mkAsk (Z.of_nat i * 900000) 1000 true) (seq 1 50) in
  onwards 0 l /\ frequent 1000 0 l /\ until 0 l = 45000000 /\ snd (asks 1000 100 0 l) = 0
  /\ snd (asks 1000 100 0 (map (fun a => mkAsk (at_ a) (room a) false) l)) = 45.
Proof.
  split; [cbn; lia|]. split; [|vm_compute; auto].
  unfold giga. cbn [map seq frequent at_]. repeat split; cbn; reflexivity.
Qed.
