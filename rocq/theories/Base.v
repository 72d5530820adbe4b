(** Generic list and function-update lemmas shared by the modules.  No part of the modelled code. *)
From Coq Require Import List ZArith Lia.
Import ListNotations.
Local Open Scope Z_scope.

(** Replace element [i] of a list; identity when out of range. *)
Fixpoint upd {A} (l : list A) (i : nat) (v : A) : list A :=
  match l, i with
  | [], _ => []
  | _ :: r, O => v :: r
  | x :: r, S j => x :: upd r j v
  end.

Lemma length_upd {A} (l : list A) i v : length (upd l i v) = length l.
Proof. revert i; induction l as [|x l IH]; intros [|i]; simpl; auto. Qed.

Lemma nth_upd_same {A} (l : list A) i v x : nth_error l i = Some x -> nth_error (upd l i v) i = Some v.
Proof. revert i; induction l as [|y l IH]; intros [|i] H; simpl in *; try discriminate; auto. Qed.

Lemma nth_upd_same' {A} (l : list A) i v : (i < length l)%nat -> nth_error (upd l i v) i = Some v.
Proof. revert i; induction l as [|y l IH]; intros [|i] H; simpl in *; try lia; auto. apply IH; lia. Qed.

Lemma nth_upd_other {A} (l : list A) i j v : i <> j -> nth_error (upd l i v) j = nth_error l j.
Proof.
  revert i j; induction l as [|y l IH]; intros [|i] [|j] H; simpl; try reflexivity; try congruence.
  apply IH; congruence.
Qed.

Lemma nth_upd_inv {A} (l : list A) i j v x :
  nth_error (upd l i v) j = Some x -> (i = j /\ x = v) \/ (i <> j /\ nth_error l j = Some x).
Proof.
  intros H. destruct (Nat.eq_dec i j) as [->|Hij].
  - left. split; [reflexivity|].
    assert (Hl : (j < length l)%nat).
    { rewrite <- (length_upd l j v). apply nth_error_Some. congruence. }
    rewrite nth_upd_same' in H by exact Hl. congruence.
  - right. rewrite nth_upd_other in H by exact Hij. auto.
Qed.

(** Sum of an integer measure over a list. *)
Fixpoint sumZ {A} (f : A -> Z) (l : list A) : Z :=
  match l with [] => 0 | x :: r => f x + sumZ f r end.

Lemma sumZ_upd {A} (f : A -> Z) l i v x : nth_error l i = Some x -> sumZ f (upd l i v) = sumZ f l - f x + f v.
Proof.
  revert i; induction l as [|y l IH]; intros [|i] H; simpl in *; try discriminate.
  - inversion H; subst; lia.
  - rewrite (IH _ H). lia.
Qed.

Lemma sumZ_nonneg {A} (f : A -> Z) l : (forall x, 0 <= f x) -> 0 <= sumZ f l.
Proof. intros Hf; induction l as [|x l IH]; simpl; [lia|]. specialize (Hf x); lia. Qed.

Lemma sumZ_ge {A} (f : A -> Z) l i x : (forall x, 0 <= f x) -> nth_error l i = Some x -> f x <= sumZ f l.
Proof.
  intros Hf. revert i; induction l as [|y l IH]; intros [|i] H; simpl in *; try discriminate.
  - inversion H; subst. pose proof (sumZ_nonneg f l Hf). lia.
  - specialize (IH _ H). specialize (Hf y). lia.
Qed.

Lemma sumZ_zero {A} (f : A -> Z) l : (forall x, In x l -> f x = 0) -> sumZ f l = 0.
Proof.
  induction l as [|y l IH]; intros H; simpl; [reflexivity|].
  rewrite (H y (or_introl eq_refl)), IH; [reflexivity|]. intros; apply H; right; assumption.
Qed.

Lemma sumZ_app {A} (f : A -> Z) l1 l2 : sumZ f (l1 ++ l2) = sumZ f l1 + sumZ f l2.
Proof. induction l1; simpl; lia. Qed.
