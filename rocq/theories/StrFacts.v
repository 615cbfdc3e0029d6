(** Facts about decimal strings and byte strings. *)
From Coq Require Import ZArith Bool Lia String Ascii DecimalString DecimalZ DecimalPos DecimalFacts List ZifyNat ZifyBool.
From Verif Require Import GoBig GoBigFacts Spec.
Import ListNotations.
Open Scope Z_scope.

Ltac Zify.zify_post_hook ::= Z.to_euclidean_division_equations.

(** ** decimal *)
Lemma parse_acc : forall d acc,
  parse_digits (Zpos acc) (list_ascii_of_string (NilEmpty.string_of_uint d)) = Some (Zpos (Pos.of_uint_acc d acc)).
Proof.
  induction d; intros acc; cbn [NilEmpty.string_of_uint list_ascii_of_string parse_digits Pos.of_uint_acc];
    [reflexivity|..];
    match goal with |- context [digit_val ?c] => let v := eval vm_compute in (digit_val c) in
      change (digit_val c) with v end; cbn match;
    match goal with |- parse_digits ?a _ = Some (Zpos (Pos.of_uint_acc _ ?b)) => replace a with (Zpos b) by lia end;
    apply IHd.
Qed.

Lemma parse_zero : forall d,
  parse_digits 0 (list_ascii_of_string (NilEmpty.string_of_uint d)) = Some (Z.of_N (Pos.of_uint d)).
Proof.
  induction d; cbn [NilEmpty.string_of_uint list_ascii_of_string parse_digits Pos.of_uint];
    [reflexivity|..];
    match goal with |- context [digit_val ?c] => let v := eval vm_compute in (digit_val c) in
      change (digit_val c) with v end; cbn match;
    [exact IHd|..];
    match goal with |- parse_digits ?a _ = _ => let v := eval vm_compute in a in change a with v end;
    apply parse_acc.
Qed.

Lemma set_string_uint : forall d, d <> Decimal.Nil ->
  set_string10 (NilEmpty.string_of_uint d) = Some (Z.of_N (Pos.of_uint d)) /\
  set_string10 (String "-" (NilEmpty.string_of_uint d)) = Some (- Z.of_N (Pos.of_uint d)).
Proof.
  intros d Hd. pose proof (parse_zero d) as H.
  destruct d; [congruence|..]; unfold set_string10;
    cbn [NilEmpty.string_of_uint list_ascii_of_string] in *;
    repeat match goal with |- context [Ascii.eqb ?a ?b] => let v := eval vm_compute in (Ascii.eqb a b) in
      change (Ascii.eqb a b) with v end; cbn match; rewrite H; split; reflexivity.
Qed.

Lemma to_uint_nonnil : forall p, Pos.to_uint p <> Decimal.Nil.
Proof.
  intros p H. pose proof (DecimalPos.Unsigned.of_to p) as E. rewrite H in E. discriminate.
Qed.

Lemma dec_pos : forall p, dec (Zpos p) = NilEmpty.string_of_uint (Pos.to_uint p).
Proof.
  intros p. unfold dec. cbn [Z.to_int NilZero.string_of_int]. pose proof (to_uint_nonnil p).
  destruct (Pos.to_uint p); try reflexivity. congruence.
Qed.
Lemma dec_neg : forall p, dec (Zneg p) = String "-" (NilEmpty.string_of_uint (Pos.to_uint p)).
Proof.
  intros p. unfold dec. cbn [Z.to_int NilZero.string_of_int]. pose proof (to_uint_nonnil p).
  destruct (Pos.to_uint p); try reflexivity. congruence.
Qed.

Theorem set_string10_dec : forall x, set_string10 (dec x) = Some x.
Proof.
  intros [|p|p].
  - reflexivity.
  - rewrite dec_pos. rewrite (proj1 (set_string_uint _ (to_uint_nonnil p))).
    rewrite DecimalPos.Unsigned.of_to. reflexivity.
  - rewrite dec_neg. rewrite (proj2 (set_string_uint _ (to_uint_nonnil p))).
    rewrite DecimalPos.Unsigned.of_to. reflexivity.
Qed.

Theorem dec_inj : forall x y, dec x = dec y -> x = y.
Proof. intros x y H. pose proof (set_string10_dec x) as E. rewrite H, set_string10_dec in E. now injection E. Qed.

(** every decimal string starts with a digit or a minus sign, hence is not empty *)
Lemma dec_nonempty : forall x, dec x <> EmptyString.
Proof. intros x H. pose proof (set_string10_dec x) as E. rewrite H in E. discriminate. Qed.

(** ** bytes *)
Lemma byte_val_range : forall a, 0 <= byte_val a < 256.
Proof.
  intros a. unfold byte_val. pose proof (N_ascii_bounded a). lia.
Qed.

Lemma set_bytes_acc : forall l acc,
  fold_left (fun acc a => acc * 256 + byte_val a) l acc =
  acc * 256 ^ Z.of_nat (List.length l) + fold_left (fun acc a => acc * 256 + byte_val a) l 0.
Proof.
  induction l as [|a l IH]; intros acc; cbn [fold_left List.length].
  - rewrite Z.pow_0_r. lia.
  - rewrite (IH (acc * 256 + byte_val a)), (IH (0 * 256 + byte_val a)).
    rewrite Nat2Z.inj_succ, Z.pow_succ_r by lia. ring.
Qed.

Lemma set_bytes_bound_list : forall l,
  0 <= fold_left (fun acc a => acc * 256 + byte_val a) l 0 < 256 ^ Z.of_nat (List.length l).
Proof.
  induction l as [|a l IH]; cbn [fold_left List.length].
  - rewrite Z.pow_0_r. lia.
  - rewrite set_bytes_acc. rewrite Nat2Z.inj_succ, Z.pow_succ_r by lia.
    pose proof (byte_val_range a). nia.
Qed.

Lemma list_ascii_length : forall s, List.length (list_ascii_of_string s) = String.length s.
Proof. induction s; cbn; congruence. Qed.

Theorem set_bytes_bound : forall s, 0 <= set_bytes s < 256 ^ Z.of_nat (String.length s).
Proof. intros s. unfold set_bytes. rewrite <- list_ascii_length. apply set_bytes_bound_list. Qed.

Lemma bytes_le_val : forall f x, 0 <= x < 2 ^ Z.of_nat f ->
  fold_left (fun acc a => acc * 256 + byte_val a) (rev (bytes_le f x)) 0 = x.
Proof.
  induction f; intros x Hx; cbn [bytes_le].
  - cbn in *. lia.
  - destruct (Z.eqb_spec x 0) as [->|Hne]; [reflexivity|].
    cbn [rev]. rewrite fold_left_app. cbn [fold_left]. rewrite IHf.
    + unfold byte_val. rewrite N_ascii_embedding by lia. rewrite Z2N.id by lia. lia.
    + rewrite Nat2Z.inj_succ, Z.pow_succ_r in Hx by lia. lia.
Qed.

(** SetBytes (Bytes x) = |x| *)
Theorem set_bytes_big_bytes : forall x, set_bytes (big_bytes x) = Z.abs x.
Proof.
  intros x. unfold set_bytes, big_bytes. rewrite list_ascii_of_string_of_list_ascii.
  apply bytes_le_val. rewrite Z2Nat.id by apply bit_len_nonneg.
  unfold bit_len. destruct (Z.eqb_spec x 0) as [->|]; [cbn; lia|].
  pose proof (Z.log2_spec (Z.abs x) ltac:(lia)) as [_ H]. rewrite <- Z.add_1_r in H. lia.
Qed.

(** ** which strings SetString accepts *)
Lemma digit_val_some : forall a, digit_val a <> None <-> is_digit a.
Proof.
  intros a. unfold digit_val, is_digit, byte_val, nat_of_ascii.
  destruct ((0 <=? Z.of_N (N_of_ascii a) - 48) && (Z.of_N (N_of_ascii a) - 48 <=? 9)) eqn:E; split; intros H; try lia; try discriminate; congruence.
Qed.
Lemma parse_digits_some : forall l acc, parse_digits acc l <> None <-> Forall is_digit l.
Proof.
  induction l as [|a l IH]; intros acc; cbn [parse_digits].
  - split; [constructor|discriminate].
  - pose proof (digit_val_some a) as D. destruct (digit_val a) as [d|].
    + rewrite IH. split; intros H; [constructor; [apply D; discriminate|assumption]|now inversion H].
    + split; [congruence|]. intros H. inversion H; subst. exfalso. now apply D.
Qed.
Lemma sign_not_digit : ~ is_digit "-"%char /\ ~ is_digit "+"%char.
Proof. split; unfold is_digit; cbn; lia. Qed.

Theorem set_string10_decimal : forall s, set_string10 s <> None <-> decimal_string s.
Proof.
  intros s. unfold set_string10, decimal_string. destruct (list_ascii_of_string s) as [|a l].
  - split; [congruence|]. intros (sign & ds & E & _ & Hne & _). destruct sign; [|discriminate]. cbn in E. congruence.
  - destruct (Ascii.eqb_spec a "-"%char) as [->|Hm]; [|destruct (Ascii.eqb_spec a "+"%char) as [->|Hp]].
    + split.
      * destruct l as [|b l]; [congruence|]. intros H. exists ["-"%char], (b :: l).
        split; [reflexivity|]. split; [tauto|]. split; [discriminate|].
        apply (parse_digits_some _ 0). destruct (parse_digits 0 (b :: l)); [discriminate|cbn in H; congruence].
      * intros (sign & ds & E & [->|[->| ->]] & Hne & Hd).
        -- cbn in E. subst ds. inversion Hd; subst. now elim (proj1 sign_not_digit).
        -- injection E as ->. destruct ds; [congruence|]. apply (parse_digits_some _ 0) in Hd.
           destruct (parse_digits 0 (a :: ds)); [discriminate|congruence].
        -- discriminate.
    + split.
      * destruct l as [|b l]; [congruence|]. intros H. exists ["+"%char], (b :: l).
        split; [reflexivity|]. split; [tauto|]. split; [discriminate|]. now apply (parse_digits_some _ 0).
      * intros (sign & ds & E & [->|[->| ->]] & Hne & Hd).
        -- cbn in E. subst ds. inversion Hd; subst. now elim (proj2 sign_not_digit).
        -- discriminate.
        -- injection E as ->. destruct ds; [congruence|]. now apply (parse_digits_some _ 0) in Hd.
    + rewrite parse_digits_some. split.
      * intros H. exists [], (a :: l). split; [reflexivity|]. split; [tauto|]. split; [discriminate|assumption].
      * intros (sign & ds & E & [->|[->| ->]] & Hne & Hd).
        -- cbn in E. now subst ds.
        -- injection E as -> ->. congruence.
        -- injection E as -> ->. congruence.
Qed.
