(** Properties C123-C131: maps of values as YAML text. *)
From Coq Require Import List NArith ZArith Ascii String Bool Lia.
From Verif Require Import YamlModel YamlSpec YamlTextProofs YamlScalProofs YamlFuelProofs YamlRoundProofs YamlSoundProofs.
Import ListNotations.

(** A number format for the examples: two numbers are known, and they are written with a few digits. *)
Definition twoNumbers : ffmt :=
  mkF (fun x => if (x =? 0x3fc00000)%N then lit "1.5" else lit "-2e+10")
      (fun t => if teqb t (lit "1.5") then Some 0x3fc00000%N else if teqb t (lit "-2e+10") then Some 0xd09502f9%N else None)
      (fun x => if (x =? 0x3ff8000000000000)%N then lit "1.5" else lit "-2e+10")
      (fun t => if teqb t (lit "1.5") then Some 0x3ff8000000000000%N else if teqb t (lit "-2e+10") then Some 0xc212a05f20000000%N else None).

(** ** C123: a map written with type tags and read again is the same map. *)
Theorem C123_round_trip : forall F m, good F (VMap m) -> deserialize F (serialize F true m) = Ok m.
Proof. apply round_trip. Qed.
Print Assumptions C123_round_trip.

(** Different maps have different texts. *)
Theorem C123_distinct_texts : forall F m1 m2, good F (VMap m1) -> good F (VMap m2) ->
  serialize F true m1 = serialize F true m2 -> m1 = m2.
Proof.
  intros F m1 m2 G1 G2 E. apply round_trip in G1, G2. rewrite E in G1. rewrite G1 in G2. now injection G2.
Qed.
Print Assumptions C123_distinct_texts.

(** A nested map with every kind of value. *)
Definition sampleMap : list (text * val) :=
  [(lit "gain", VS (SF32 0x3fc00000)); (lit "odd: key", VMap [(lit "", VStr (lit "# not a comment"));
     (lit "list", VList [VNull; VTen (TInt U16) [2%nat] [SInt U16 3; SInt U16 65535]; VMap [(lit "k", VStr (lit "a" ++ [nl; nl] ++ lit "b"))]; VList []; VMap []])]);
   (lit "z", VS (SC64 0x3ff8000000000000 0xc212a05f20000000)); (lit "n", VS (SInt I8 (-128))); (lit "b", VS (SBool true)); (lit "inf", VS (SF64 0xfff0000000000000))].
Lemma members : forall l t, forallb (member l) t = true -> Forall (fun c => In c l) t.
Proof.
  intros l t H. apply Forall_forall. intros c Hc. rewrite forallb_forall in H. apply H in Hc. unfold member in Hc. apply existsb_exists in Hc.
  destruct Hc as [x [Hx E]]. apply Ascii.eqb_eq in E. now subst.
Qed.
Lemma keyCheck : forall s, forallb (fun c => negb (member (lit "#-[{ '""") c)) (lit s) = true -> goodKey (lit s).
Proof.
  intros s H. rewrite forallb_forall in H. right. split; [|split].
  - intros Hi. apply H in Hi. discriminate.
  - intros c r E Hi. specialize (H c). rewrite E in H. specialize (H (or_introl eq_refl)). cbn [In] in Hi.
    destruct Hi as [<-|[<-|[<-|[<-|[<-|[<-|[]]]]]]]; discriminate.
  - intros c r E ->. specialize (H " "%char). rewrite E in H. assert (X : In " "%char (r ++ [" "%char])) by (apply in_or_app; right; now left). apply H in X. discriminate.
Qed.
Lemma stringCheck : forall t, existsb (fun c => Ascii.eqb c sp || Ascii.eqb c bsl) t = false -> goodString t.
Proof.
  intros t H _. assert (N : forall c, In c t -> c <> sp /\ c <> bsl).
  { intros c Hc. split; intros ->; assert (E : existsb (fun c => Ascii.eqb c sp || Ascii.eqb c bsl) t = true) by (apply existsb_exists; eexists; split; eauto); congruence. }
  split.
  - intros a n b -> _ _. destruct (N sp) as [E _]; [|now apply E]. apply in_or_app. right. cbn. now left.
  - intros a c b ->. destruct (N bsl) as [_ E]; [|now destruct E]. apply in_or_app. right. now left.
Qed.
Ltac each := repeat (apply Forall_cons || apply Forall_nil); cbn [fst snd].
Ltac differ := cbn [map fst]; repeat (apply NoDup_cons || apply NoDup_nil); cbn [In]; intuition discriminate.

Lemma sample_good : good twoNumbers (VMap sampleMap).
Proof.
  assert (N32 : exact32 twoNumbers 0x3fc00000).
  { split; [|reflexivity]. split; [now apply members|]. exists "1"%char, (lit ".5"). split; [now left|]. cbn. tauto. }
  assert (N64 : exact64 twoNumbers 0x3ff8000000000000).
  { split; [|reflexivity]. split; [now apply members|]. exists "1"%char, (lit ".5"). split; [now left|]. cbn. tauto. }
  assert (M64 : exact64 twoNumbers 0xc212a05f20000000).
  { split; [|reflexivity]. split; [now apply members|]. exists "2"%char, (lit "e+10"). split; [now right|]. cbn. tauto. }
  unfold sampleMap. apply gMap.
  - differ.
  - each; try (apply keyCheck; reflexivity). left. left. cbn. tauto.
  - each.
    + apply gScal. right. split; [vm_compute; discriminate|exact N32].
    + apply gMap.
      * differ.
      * each; try (apply keyCheck; reflexivity). 
      * each.
        -- apply gStr. intros [H _]. cbn in H. intuition discriminate.
        -- apply gList. each.
           ++ apply gNull.
           ++ apply (gTen _ (TInt U16) [SInt U16 3; SInt U16 65535]). each; (split; [reflexivity|cbn; lia]).
           ++ apply gMap; [differ|each; apply keyCheck; reflexivity|]. each. apply gStr. now apply stringCheck.
           ++ apply gList. each.
           ++ apply gMap; [differ|each|each].
    + apply gScal. split; auto.
    + apply gScal. cbn. lia.
    + apply gScal. exact I.
    + apply gScal. left. right. left. reflexivity.
Qed.
Example C123_case : good twoNumbers (VMap sampleMap) /\ deserialize twoNumbers (serialize twoNumbers true sampleMap) = Ok sampleMap.
Proof. split; [exact sample_good|]. apply round_trip, sample_good. Qed.

(** ** C124: strings. Every string that is not written as a block comes back, whatever bytes it holds. *)
Theorem C124_strings : forall F k t, goodKey k -> ~ blockString t -> deserialize F (serialize F true [(k, VStr t)]) = Ok [(k, VStr t)].
Proof.
  intros F k t Hk Ht. apply round_trip. apply gMap; [repeat constructor; cbn; tauto|each; auto|each]. apply gStr. intros B. contradiction.
Qed.
Print Assumptions C124_strings.
(** A string with a zero byte, a quote, a backslash and a line break. *)
Example C124_case : goodKey (lit "k") /\ ~ blockString ["000"; """"; "\"; "010"; "255"; "#"]%char.
Proof. split; [now apply keyCheck|]. intros [_ H]. apply Forall_inv in H. destruct H as [[H _]|H]; [vm_compute in H; congruence|discriminate]. Qed.

(** A block string with a line of blanks, with a path, or with an escape sequence in its text changes or cannot be read. *)
Theorem C124_blank_line_refuted : exists t, forall F,
  deserialize F (serialize F true [(lit "a", VStr t)]) = Ok [(lit "a", VStr (lit "x" ++ [nl; nl] ++ lit "y"))] /\ t <> lit "x" ++ [nl; nl] ++ lit "y".
Proof. exists (lit "x" ++ [nl] ++ lit "  " ++ [nl] ++ lit "y"). intros F. split; [vm_compute; reflexivity|discriminate]. Qed.
Print Assumptions C124_blank_line_refuted.
Theorem C124_escape_refuted : forall F,
  deserialize F (serialize F true [(lit "a", VStr (lit "\x41" ++ [nl]))]) = Ok [(lit "a", VStr (lit "A" ++ [nl]))].
Proof. vm_compute. reflexivity. Qed.
Print Assumptions C124_escape_refuted.
Theorem C124_unreadable_refuted : forall F,
  deserialize F (serialize F true [(lit "a", VStr (lit "C:\users" ++ [nl]))]) = Err.
Proof. vm_compute. reflexivity. Qed.
Print Assumptions C124_unreadable_refuted.

(** ** C125: keys. *)
Theorem C125_keys : forall F k, goodKey k -> deserialize F (serialize F true [(k, VNull)]) = Ok [(k, VNull)].
Proof. intros F k Hk. apply round_trip. apply gMap; [repeat constructor; cbn; tauto|each; auto|each]. apply gNull. Qed.
Print Assumptions C125_keys.
Example C125_case : goodKey (lit "a: b#") /\ goodKey (lit "frame rate [Hz]").
Proof.
  split; [left; left; cbn; tauto|]. right. split; [cbn; intuition discriminate|]. split.
  - intros c r E. injection E as <- _. cbn. intuition discriminate.
  - intros c r E ->. apply (f_equal (fun l => last l "x"%char)) in E. rewrite last_last in E. discriminate.
Qed.

(** Other keys change, vanish, or make the text unreadable. *)
Theorem C125_blank_refuted : forall F, deserialize F (serialize F true [(lit " b", VNull)]) = Ok [(lit "b", VNull)].
Proof. vm_compute. reflexivity. Qed.
Print Assumptions C125_blank_refuted.
Theorem C125_comment_refuted : forall F, deserialize F (serialize F true [(lit "#b", VNull)]) = Ok [] /\ deserialize F (serialize F true [(lit "a#b", VNull)]) = Err.
Proof. split; vm_compute; reflexivity. Qed.
Print Assumptions C125_comment_refuted.
Theorem C125_dash_refuted : forall F, deserialize F (serialize F true [(lit "-b", VNull)]) = Err /\ deserialize F (serialize F true [(lit "---b", VNull)]) = Ok [(lit "b", VNull)].
Proof. split; vm_compute; reflexivity. Qed.
Print Assumptions C125_dash_refuted.
Theorem C125_quote_refuted : forall F, deserialize F (serialize F true [(lit """b""", VNull)]) = Ok [(lit "b", VNull)].
Proof. vm_compute. reflexivity. Qed.
Print Assumptions C125_quote_refuted.
Theorem C125_bracket_refuted : let F := twoNumbers in
  deserialize F (serialize F true [(lit "a", VMap [(lit "[b", VNull)])]) = Err /\ deserialize F (serialize F true [(lit "{b", VNull)]) = Err.
Proof. split; vm_compute; reflexivity. Qed.
Print Assumptions C125_bracket_refuted.

(** ** C126: without type tags, a string can come back as a number, as nothing, cut short, or as further entries. *)
Theorem C126_number_refuted : forall F, deserialize F (serialize F false [(lit "a", VStr (lit "42"))]) = Ok [(lit "a", VS (SInt I64 42))].
Proof. vm_compute. reflexivity. Qed.
Print Assumptions C126_number_refuted.
Theorem C126_cut_refuted : let F := twoNumbers in
  deserialize F (serialize F false [(lit "a", VStr [])]) = Ok [(lit "a", VNull)]
  /\ deserialize F (serialize F false [(lit "a", VStr (lit "a # b"))]) = Ok [(lit "a", VStr (lit "a"))].
Proof. split; vm_compute; reflexivity. Qed.
Print Assumptions C126_cut_refuted.
Theorem C126_entries_refuted : forall F, deserialize F (serialize F false [(lit "a", VStr (lit "k: true"))]) = Ok [(lit "a", VMap []); (lit "k", VS (SBool true))].
Proof. vm_compute. reflexivity. Qed.
Print Assumptions C126_entries_refuted.

(** ** C127: a tensor of strings never comes back as one, and its items are read as numbers, maps or lists. *)
Theorem C127_never_refuted : forall F t m ts k, deserialize F t = Ok m -> ~ In (k, VStrs ts) m.
Proof.
  intros F t m ts k H Hi. apply read_sound in H. inversion H as [| | |m' Nd Sd| |]; subst m'. rewrite Forall_forall in Sd. apply Sd in Hi. inversion Hi.
Qed.
Print Assumptions C127_never_refuted.
Theorem C127_items_refuted : forall F, deserialize F (serialize F true [(lit "a", VStrs [lit "1"; lit "k: true"; lit "[null]"])])
  = Ok [(lit "a", VList [VS (SInt I64 1); VMap [(lit "k", VS (SBool true))]; VList [VNull]])].
Proof. vm_compute. reflexivity. Qed.
Print Assumptions C127_items_refuted.

(** ** C128: the extents of a tensor are lost, and so are digits of numbers written alike. *)
Theorem C128_extents_refuted : forall F, deserialize F (serialize F true [(lit "a", VTen TBool [2; 2] [SBool true; SBool false; SBool true; SBool true])])
  = Ok [(lit "a", VTen TBool [4%nat] [SBool true; SBool false; SBool true; SBool true])].
Proof. vm_compute. reflexivity. Qed.
Print Assumptions C128_extents_refuted.
Theorem C128_digits_refuted : forall F x y, x <> y -> finite64 x -> finite64 y -> show64 F x = show64 F y ->
  ~ (deserialize F (serialize F true [(lit "a", VS (SF64 x))]) = Ok [(lit "a", VS (SF64 x))]
     /\ deserialize F (serialize F true [(lit "a", VS (SF64 y))]) = Ok [(lit "a", VS (SF64 y))]).
Proof.
  intros F x y Hn Hx Hy E [H1 H2]. assert (Es : showScal F (SF64 x) = showScal F (SF64 y)).
  { assert (T : forall z, finite64 z -> showScal F (SF64 z) = show64 F z).
    { intros z Hz. unfold showScal, isNan64, isInf64. unfold finite64 in Hz. change (2 ^ 52)%N with 0x10000000000000%N. change (2 ^ 11)%N with 0x800%N.
      apply N.eqb_neq in Hz. now rewrite Hz. }
    now rewrite !T. }
  unfold serialize in H1, H2. cbn [ser flat_map fst snd typeOf] in H1, H2. rewrite Es in H1. rewrite H1 in H2. injection H2. congruence.
Qed.
Print Assumptions C128_digits_refuted.
(** 1234567 and 1234570, which std::ostream writes alike with its six digits. *)
Example C128_case : let F := mkF (fun _ => []) (fun _ => None) (fun _ => lit "1.23457e+06") (fun _ => Some 0x4132d68a00000000%N) in
  0x4132d68700000000%N <> 0x4132d68a00000000%N /\ finite64 0x4132d68700000000 /\ finite64 0x4132d68a00000000
  /\ show64 F 0x4132d68700000000 = show64 F 0x4132d68a00000000
  /\ deserialize F (serialize F true [(lit "a", VS (SF64 0x4132d68700000000))]) = Ok [(lit "a", VS (SF64 0x4132d68a00000000))].
Proof. repeat split; try (vm_compute; discriminate); vm_compute; reflexivity. Qed.

(** ** C129: reading ends for every text. *)
Theorem C129_reading_ends : forall F t, (exists m, deserialize F t = Ok m) \/ deserialize F t = Err.
Proof.
  intros F t. assert (H : deserialize F t <> Fuel) by (apply deserializeWith_enough; lia). destruct (deserialize F t); eauto. congruence.
Qed.
Print Assumptions C129_reading_ends.
(** More steps than given do not change the answer. *)
Theorem C129_any_fuel : forall F t f m, deserializeWith F f t = Ok m -> deserialize F t = Ok m.
Proof. apply deserialize_with. Qed.
Print Assumptions C129_any_fuel.
Example C129_case : deserialize twoNumbers (lit "a: [1, {b: [2") = Err /\ deserialize twoNumbers (lit "- [") = Err.
Proof. split; vm_compute; reflexivity. Qed.

(** ** C130: whatever is read is a proper value: different keys in every map, integers in the range of their type, tensors
    of one type. *)
Theorem C130_read_sound : forall F t m, deserialize F t = Ok m -> sound (VMap m).
Proof. apply read_sound. Qed.
Print Assumptions C130_read_sound.
Example C130_case : exists m, deserialize twoNumbers (lit "a: !!int8 [1, -2]" ++ nl :: lit "a: {b: 3, b: 4}") = Ok m /\ m = [(lit "a", VMap [(lit "b", VS (SInt I64 4))])].
Proof. eexists. split; vm_compute; reflexivity. Qed.
(** A tagged integer out of range is refused. *)
Example C130_range : deserialize twoNumbers (lit "a: !!uint8 256") = Err /\ deserialize twoNumbers (lit "a: !!uint8 255") = Ok [(lit "a", VS (SInt U8 255))].
Proof. split; vm_compute; reflexivity. Qed.

(** ** C131: malformed texts are accepted. *)
Theorem C131_trailing_refuted : forall F, deserialize F (lit "a: [1] ]] {") = Ok [(lit "a", VList [VS (SInt I64 1)])].
Proof. vm_compute. reflexivity. Qed.
Print Assumptions C131_trailing_refuted.
Theorem C131_hex_refuted : forall F, deserialize F (lit "a: ""\x4G""") = Ok [(lit "a", VStr ["004"%char])] /\ deserialize F (lit "a: 0x-5") = Ok [(lit "a", VS (SInt I64 (-5)))].
Proof. split; vm_compute; reflexivity. Qed.
Print Assumptions C131_hex_refuted.
Theorem C131_null_refuted : forall F, deserialize F (lit "a: !!null 300") = Ok [(lit "a", VNull)].
Proof. vm_compute. reflexivity. Qed.
Print Assumptions C131_null_refuted.
