(** Counting byte sources: how often crypto/rand.Int returns each value. *)
From Coq Require Import ZArith NArith Nnat Bool Lia Wf_nat Compare_dec String Ascii List.
From Verif Require Import GoBig GoBigFacts StrFacts FSProofs SecurityProofs HashModel PokeModel SquaresModel RangeModel RandModel.
Import ListNotations.
Open Scope Z_scope.

(** ** all byte strings of a given length *)
Definition all_ascii : list ascii := map (fun n => ascii_of_N (N.of_nat n)) (seq 0 256).
Fixpoint all_bytes (L : nat) : list string :=
  match L with O => [EmptyString] | S l => flat_map (fun a => map (String a) (all_bytes l)) all_ascii end.
(** how many byte strings of length L satisfy P *)
Definition tally (P : string -> bool) (L : nat) : nat := List.length (filter P (all_bytes L)).

Lemma all_bytes_S : forall L, all_bytes (S L) = flat_map (fun a => map (String a) (all_bytes L)) all_ascii.
Proof. reflexivity. Qed.
#[global] Opaque all_ascii.

Lemma filter_map_len : forall A B (f : A -> B) P l, List.length (filter P (map f l)) = List.length (filter (fun x => P (f x)) l).
Proof. intros A B f P l. induction l as [|x l IH]; [reflexivity|]. cbn. destruct (P (f x)); cbn; now rewrite IH. Qed.
Lemma filter_flat_map_len : forall A B (f : A -> list B) P l,
  List.length (filter P (flat_map f l)) = list_sum (map (fun x => List.length (filter P (f x))) l).
Proof.
  intros A B f P l. induction l as [|x l IH]; [reflexivity|]. cbn [flat_map map list_sum fold_right].
  rewrite filter_app, app_length, IH. reflexivity.
Qed.
Lemma list_sum_flat_map : forall A B (g : B -> nat) (f : A -> list B) l,
  list_sum (map g (flat_map f l)) = list_sum (map (fun x => list_sum (map g (f x))) l).
Proof.
  intros A B g f l. induction l as [|x l IH]; [reflexivity|]. cbn [flat_map map]. rewrite map_app, list_sum_app, IH. reflexivity.
Qed.

Lemma tally_S : forall P L, tally P (S L) = list_sum (map (fun a => tally (fun s => P (String a s)) L) all_ascii).
Proof.
  intros P L. unfold tally. rewrite all_bytes_S, filter_flat_map_len. f_equal. apply map_ext. intros a. apply filter_map_len.
Qed.
Lemma tally_app : forall k L P, tally P (k + L) = list_sum (map (fun b => tally (fun s => P (b ++ s)%string) L) (all_bytes k)).
Proof.
  induction k as [|k IH]; intros L P.
  - cbn [all_bytes map list_sum fold_right Nat.add String.append]. now rewrite Nat.add_0_r.
  - cbn [Nat.add]. rewrite tally_S, all_bytes_S, list_sum_flat_map. f_equal. apply map_ext. intros a.
    rewrite IH, map_map. reflexivity.
Qed.
Lemma all_bytes_length : forall L s, In s (all_bytes L) <-> String.length s = L.
Proof.
  induction L as [|L IH]; intros s.
  - cbn. split; [intros [<-|[]]; reflexivity|]. destruct s; [now left|discriminate].
  - rewrite all_bytes_S, in_flat_map. split.
    + intros (a & _ & H). apply in_map_iff in H. destruct H as (t & <- & H). cbn. f_equal. now apply IH.
    + destruct s as [|a s]; [discriminate|]. cbn. intros H. injection H as H. exists a. split.
      * Transparent all_ascii. unfold all_ascii. Opaque all_ascii. apply in_map_iff. exists (N.to_nat (N_of_ascii a)).
        rewrite N2Nat.id, ascii_N_embedding. split; [reflexivity|]. apply in_seq. pose proof (N_ascii_bounded a). lia.
      * apply in_map. now apply IH.
Qed.
Lemma tally_ext : forall P Q L, (forall s, String.length s = L -> P s = Q s) -> tally P L = tally Q L.
Proof. intros P Q L H. unfold tally. f_equal. apply filter_ext_in. intros s Hs. apply H. now apply all_bytes_length. Qed.
Lemma tally_false : forall L, tally (fun _ => false) L = 0%nat.
Proof. intros L. unfold tally. induction (all_bytes L); [reflexivity|]. exact IHl. Qed.

(** ** the k-byte strings are the numbers below 256^k *)
Lemma seq_blocks : forall M q, flat_map (fun a => map (fun x => (a * M + x)%nat) (seq 0 M)) (seq 0 q) = seq 0 (q * M).
Proof.
  intros M q. induction q as [|q IH]; [reflexivity|]. rewrite seq_S, flat_map_app, IH. cbn [flat_map Nat.add]. rewrite app_nil_r.
  replace (S q * M)%nat with (q * M + M)%nat by lia. rewrite seq_app. f_equal. cbn [Nat.add].
  assert (G : forall c n z, map (fun x => (c + x)%nat) (seq z n) = seq (c + z) n).
  { clear. intros c n. induction n as [|n IH]; intros z; [reflexivity|]. cbn [seq map]. f_equal. rewrite IH. f_equal. lia. }
  rewrite G. f_equal. lia.
Qed.
Lemma set_bytes_cons : forall a s, set_bytes (String a s) = byte_val a * 256 ^ Z.of_nat (String.length s) + set_bytes s.
Proof.
  intros a s. unfold set_bytes. cbn [list_ascii_of_string fold_left]. rewrite set_bytes_acc, list_ascii_length. lia.
Qed.
Lemma all_bytes_values : forall k, map set_bytes (all_bytes k) = map Z.of_nat (seq 0 (256 ^ k)).
Proof.
  induction k as [|k IH]; [reflexivity|]. rewrite all_bytes_S, Nat.pow_succ_r', <- seq_blocks.
  rewrite !flat_map_concat_map, !concat_map, !map_map. f_equal.
  Transparent all_ascii. unfold all_ascii. Opaque all_ascii. rewrite map_map. apply map_ext_in. intros n Hn. apply in_seq in Hn.
  rewrite !map_map. transitivity (map (fun v => Z.of_nat n * 256 ^ Z.of_nat k + v) (map set_bytes (all_bytes k))).
  - rewrite map_map. apply map_ext_in. intros s Hs. apply all_bytes_length in Hs. rewrite set_bytes_cons, Hs. f_equal.
    unfold byte_val. rewrite N_ascii_embedding by lia. lia.
  - rewrite IH, map_map. apply map_ext. intros x. rewrite Nat2Z.inj_add, Nat2Z.inj_mul, Nat2Z.inj_pow. lia.
Qed.
Lemma tally_value : forall (f : Z -> bool) k, tally (fun s => f (set_bytes s)) k = count f (256 ^ k).
Proof. intros f k. unfold tally, count. rewrite <- all_bytes_values. now rewrite filter_map_len. Qed.

(** ** reading *)
Lemma read_full_app : forall b s, read_full (String.length b) (b ++ s) = Some (b, s).
Proof. induction b as [|a b IH]; intros s; [reflexivity|]. cbn. now rewrite IH. Qed.
Lemma read_full_short : forall k s, (String.length s < k)%nat -> read_full k s = None.
Proof.
  induction k as [|k IH]; intros s H; [lia|]. destruct s as [|a s]; [reflexivity|]. cbn in *. rewrite IH by lia. reflexivity.
Qed.
Lemma read_full_some : forall k s b r, read_full k s = Some (b, r) -> s = (b ++ r)%string /\ String.length b = k.
Proof.
  induction k as [|k IH]; intros s b r H.
  - cbn in H. destruct s; injection H as <- <-; auto.
  - destruct s as [|a s]; [discriminate|]. cbn in H. destruct (read_full k s) as [[b' r']|] eqn:E; [|discriminate].
    injection H as <- <-. apply IH in E. destruct E as [-> <-]. auto.
Qed.
Lemma read_full_none : forall k s, read_full k s = None -> (String.length s < k)%nat.
Proof.
  induction k as [|k IH]; intros s H; [destruct s; discriminate|]. destruct s as [|a s]; [cbn; lia|]. cbn in *.
  destruct (read_full k s) as [[]|] eqn:E; [discriminate|]. apply IH in E. lia.
Qed.

Lemma mask_value : forall k b s, 0 <= b <= 8 -> String.length s = S k ->
  set_bytes (mask_first b s) = set_bytes s mod 2 ^ (b + 8 * Z.of_nat k).
Proof.
  intros k b s Hb L. destruct s as [|a s]; [discriminate|]. cbn in L. injection L as L. cbn [mask_first].
  rewrite !set_bytes_cons, L. unfold byte_val at 1. pose proof (byte_val_range a) as Ra.
  rewrite Z.shiftl_1_l. replace (2 ^ b - 1) with (Z.ones b) by (rewrite Z.ones_equiv; lia). rewrite Z.land_ones by lia.
  assert (P : 0 < 2 ^ b) by (apply Z.pow_pos_nonneg; lia). pose proof (Z.mod_pos_bound (byte_val a) (2 ^ b) P) as Rm.
  assert (Q : byte_val a mod 2 ^ b <= byte_val a) by (apply Z.mod_le; lia).
  rewrite N_ascii_embedding by lia. rewrite Z2N.id by lia.
  pose proof (set_bytes_bound s) as Rs. rewrite L in Rs.
  replace (2 ^ (b + 8 * Z.of_nat k)) with (2 ^ b * 256 ^ Z.of_nat k)
    by (rewrite Z.pow_add_r by lia; f_equal; change 256 with (2 ^ 8); rewrite <- Z.pow_mul_r by lia; f_equal; lia).
  set (W := 256 ^ Z.of_nat k) in *. apply (Z.mod_unique_pos _ _ (byte_val a / 2 ^ b)).
  - nia.
  - pose proof (Z.div_mod (byte_val a) (2 ^ b) ltac:(lia)) as D. nia.
Qed.

Section Int.
Variables (k : nat) (b max : Z).
Hypothesis Hk : (0 < k)%nat.
Hypothesis Hb : 1 <= b <= 8.
Let bl := b + 8 * Z.of_nat (k - 1).
Hypothesis Hmax : 2 ^ (bl - 1) < max <= 2 ^ bl.

Lemma bl_pos : 1 <= bl.
Proof. unfold bl. lia. Qed.
Lemma max_pos : 0 < max.
Proof. pose proof bl_pos. assert (0 < 2 ^ (bl - 1)) by (apply Z.pow_pos_nonneg; lia). lia. Qed.

Lemma rand_enough : forall f f' src, (String.length src < f)%nat -> (String.length src < f')%nat ->
  rand_loop f k b max src = rand_loop f' k b max src.
Proof.
  induction f as [|f IH]; intros f' src H H'; [lia|]. destruct f' as [|f']; [lia|]. cbn [rand_loop].
  destruct (read_full k src) as [[bs rest]|] eqn:E; [|reflexivity]. destruct (_ <? max); [reflexivity|].
  apply read_full_some in E. destruct E as [-> E]. rewrite append_length in *. apply IH; lia.
Qed.
Lemma rand_fuel : forall f src, (String.length src < f)%nat ->
  rand_loop f k b max src = Ret None \/ exists v rest, rand_loop f k b max src = Ret (Some (v, rest)) /\ 0 <= v < max.
Proof.
  induction f as [|f IH]; intros src H; [lia|]. cbn [rand_loop].
  destruct (read_full k src) as [[bs rest]|] eqn:E; [|now left]. destruct (Z.ltb_spec (set_bytes (mask_first b bs)) max) as [C|C].
  - right. eexists _, _. split; [reflexivity|]. pose proof (set_bytes_bound (mask_first b bs)). lia.
  - apply read_full_some in E. destruct E as [-> E]. rewrite append_length in *. apply IH; lia.
Qed.

Definition loop : draw Z := fun src => rand_loop (S (String.length src)) k b max src.
Definition masked (s : string) : Z := set_bytes (mask_first b s).

Lemma loop_app : forall bs src, String.length bs = k ->
  loop (bs ++ src)%string = if masked bs <? max then Ret (Some (masked bs, src)) else loop src.
Proof.
  intros bs src L. unfold loop at 1. cbn [rand_loop]. rewrite <- L at 1. rewrite read_full_app. fold (masked bs).
  destruct (_ <? max); [reflexivity|]. unfold loop. apply rand_enough; rewrite ?append_length; lia.
Qed.
Lemma loop_short : forall src, (String.length src < k)%nat -> loop src = Ret None.
Proof. intros src L. unfold loop. cbn [rand_loop]. now rewrite read_full_short. Qed.

(** each value is produced by the same number of k-byte reads *)
Definition per_value : nat := Z.to_nat (2 ^ (8 - b)).
Lemma pow_k : Z.of_nat (256 ^ k) = 2 ^ (8 - b) * 2 ^ bl.
Proof.
  unfold bl. rewrite <- Z.pow_add_r by lia. rewrite Nat2Z.inj_pow. change (Z.of_nat 256) with (2 ^ 8). rewrite <- Z.pow_mul_r by lia.
  f_equal. lia.
Qed.
Lemma masked_mod : forall s, String.length s = k -> masked s = set_bytes s mod 2 ^ bl.
Proof. intros s L. unfold masked, bl. apply mask_value; lia. Qed.
Lemma tally_masked : forall v, 0 <= v < max -> tally (fun s => masked s =? v) k = per_value.
Proof.
  intros v Hv. rewrite (tally_ext _ (fun s => set_bytes s mod 2 ^ bl =? v)) by (intros s L; now rewrite masked_mod).
  rewrite (tally_value (fun n => n mod 2 ^ bl =? v)). apply Nat2Z.inj. pose proof bl_pos.
  assert (P : 0 < 2 ^ bl) by (apply Z.pow_pos_nonneg; lia).
  assert (P' : 0 < 2 ^ (8 - b)) by (apply Z.pow_pos_nonneg; lia).
  rewrite count_residue by lia. unfold per_value. rewrite Z2Nat.id by lia. rewrite pow_k.
  symmetry. apply (Z.div_unique_pos _ _ _ (2 ^ bl - 1 - v)); lia.
Qed.
Definition rejects : nat := tally (fun s => max <=? masked s) k.

Definition paths {A} (d : draw A) (G : A -> string -> bool) (L : nat) : nat :=
  tally (fun s => match d s with Ret (Some (a, rest)) => G a rest | _ => false end) L.

Lemma sum_cases : forall (m : string -> Z) a (X Y : nat) l, a < max ->
  list_sum (map (fun s => if m s <? max then (if m s =? a then X else 0%nat) else Y) l) =
  (X * List.length (filter (fun s => m s =? a)%Z l) + Y * List.length (filter (fun s => max <=? m s)%Z l))%nat.
Proof.
  intros m a X Y l Ha. induction l as [|s l IH]; [cbn; lia|]. cbn [map filter list_sum fold_right]. fold (list_sum (map (fun s => if m s <? max then (if m s =? a then X else 0%nat) else Y) l)).
  rewrite IH. destruct (Z.ltb_spec (m s) max) as [C|C]; destruct (Z.eqb_spec (m s) a) as [D|D]; destruct (Z.leb_spec max (m s)) as [E|E]; cbn [List.length]; lia.
Qed.

Lemma paths_step : forall (G : Z -> string -> bool) a L, 0 <= a < max -> (forall x r, G x r = true -> x = a) ->
  paths loop G (k + L) = (tally (G a) L * per_value + paths loop G L * rejects)%nat.
Proof.
  intros G a L Ha HG. unfold paths at 1. rewrite tally_app.
  rewrite <- (tally_masked a Ha). unfold rejects. change (tally (fun s => masked s =? a) k) with (List.length (filter (fun s => masked s =? a) (all_bytes k))).
  change (tally (fun s => max <=? masked s) k) with (List.length (filter (fun s => max <=? masked s) (all_bytes k))).
  rewrite <- sum_cases by lia. f_equal. apply map_ext_in.
  intros bs Hbs. apply all_bytes_length in Hbs. destruct (Z.ltb_spec (masked bs) max) as [C|C].
  - destruct (Z.eqb_spec (masked bs) a) as [D|D].
    + apply tally_ext. intros s _. rewrite loop_app by assumption. destruct (Z.ltb_spec (masked bs) max); [|lia]. now rewrite D.
    + rewrite <- (tally_false L). apply tally_ext. intros s _. rewrite loop_app by assumption.
      destruct (Z.ltb_spec (masked bs) max); [|lia]. destruct (G (masked bs) s) eqn:E; [|reflexivity]. apply HG in E. lia.
  - apply tally_ext. intros s _. rewrite loop_app by assumption. destruct (Z.ltb_spec (masked bs) max); [lia|reflexivity].
Qed.
Lemma paths_short : forall (G : Z -> string -> bool) L, (L < k)%nat -> paths loop G L = 0%nat.
Proof.
  intros G L H. unfold paths. rewrite <- (tally_false L). apply tally_ext. intros s Hs. rewrite loop_short by lia. reflexivity.
Qed.

Lemma loop_law : forall a a' (G G' : Z -> string -> bool), 0 <= a < max -> 0 <= a' < max ->
  (forall x r, G x r = true -> x = a) -> (forall x r, G' x r = true -> x = a') ->
  (forall L, tally (G a) L = tally (G' a') L) -> forall L, paths loop G L = paths loop G' L.
Proof.
  intros a a' G G' Ha Ha' HG HG' E L. induction L as [L IH] using (well_founded_induction lt_wf).
  destruct (le_lt_dec k L) as [C|C]; [|now rewrite !paths_short].
  replace L with (k + (L - k))%nat by lia. rewrite (paths_step G a), (paths_step G' a') by assumption. rewrite E, IH by lia. reflexivity.
Qed.

(** the reader fails at most once in 2^T when it holds T reads *)
Lemma rejects_half : 2 * Z.of_nat rejects <= Z.of_nat (256 ^ k).
Proof.
  pose proof bl_pos. pose proof max_pos.
  assert (E : (List.length (filter (fun s => max <=? masked s)%Z (all_bytes k)) + List.length (filter (fun s => masked s <? max)%Z (all_bytes k)) = 256 ^ k)%nat).
  { replace (256 ^ k)%nat with (List.length (all_bytes k)).
    - generalize (all_bytes k) as l. induction l as [|s l IH]; [reflexivity|]. cbn [filter].
      destruct (Z.leb_spec max (masked s)); destruct (Z.ltb_spec (masked s) max); cbn [List.length]; lia.
    - rewrite <- (map_length set_bytes), all_bytes_values, map_length, seq_length. reflexivity. }
  assert (F : forall n : nat, Z.of_nat n <= max -> List.length (filter (fun s => masked s <? Z.of_nat n)%Z (all_bytes k)) = (n * per_value)%nat).
  { induction n as [|n IH]; intros Hn.
    - transitivity (tally (fun _ => false) k); [|rewrite tally_false; lia]. apply (tally_ext (fun s => masked s <? Z.of_nat 0)).
      intros s Hs. rewrite masked_mod by assumption. apply Z.ltb_ge. change (Z.of_nat 0) with 0. apply Z.mod_pos_bound, Z.pow_pos_nonneg; lia.
    - cbn [Nat.mul]. rewrite <- IH by lia. rewrite <- (tally_masked (Z.of_nat n)) by lia. unfold tally.
      generalize (all_bytes k) as l. induction l as [|s l IHl]; [reflexivity|]. cbn [filter].
      destruct (Z.ltb_spec (masked s) (Z.of_nat (S n))); destruct (Z.ltb_spec (masked s) (Z.of_nat n)); destruct (Z.eqb_spec (masked s) (Z.of_nat n)); cbn [List.length]; lia. }
  specialize (F (Z.to_nat max)). rewrite Z2Nat.id in F by lia. specialize (F ltac:(lia)).
  unfold rejects, tally. set (R := List.length (filter (fun s => max <=? masked s)%Z (all_bytes k))) in *.
  rewrite F in E. pose proof pow_k as PK. rewrite <- E, Nat2Z.inj_add, Nat2Z.inj_mul, Z2Nat.id in PK by lia. rewrite <- E, Nat2Z.inj_add, Nat2Z.inj_mul, Z2Nat.id by lia.
  unfold per_value in *. assert (P' : 0 < 2 ^ (8 - b)) by (apply Z.pow_pos_nonneg; lia). rewrite Z2Nat.id in * by lia.
  assert (D : 2 ^ bl = 2 * 2 ^ (bl - 1)) by (rewrite <- Z.pow_succ_r by lia; f_equal; lia). nia.
Qed.
Definition fails (L : nat) : nat := tally (fun s => match loop s with Ret (Some _) => false | _ => true end) L.
Lemma fails_step : forall L, fails (k + L) = (rejects * fails L)%nat.
Proof.
  intros L. unfold fails at 1. rewrite tally_app. unfold rejects, tally at 2.
  assert (E : forall bs, String.length bs = k -> tally (fun s => match loop (bs ++ s)%string with Ret (Some _) => false | _ => true end) L =
    if max <=? masked bs then fails L else 0%nat).
  { intros bs Hbs. destruct (Z.leb_spec max (masked bs)).
    - apply tally_ext. intros s _. rewrite loop_app by assumption. destruct (Z.ltb_spec (masked bs) max); [lia|reflexivity].
    - rewrite <- (tally_false L). apply tally_ext. intros s _. rewrite loop_app by assumption. destruct (Z.ltb_spec (masked bs) max); [reflexivity|lia]. }
  transitivity (list_sum (map (fun bs => if max <=? masked bs then fails L else 0%nat) (all_bytes k))).
  - f_equal. apply map_ext_in. intros bs Hbs. apply E. now apply all_bytes_length.
  - generalize (all_bytes k) as l. induction l as [|s l IH]; [reflexivity|]. cbn [map filter list_sum fold_right].
    fold (list_sum (map (fun bs => if max <=? masked bs then fails L else 0%nat) l)). rewrite IH. destruct (max <=? masked s); cbn [List.length]; lia.
Qed.
Lemma fails_bound : forall T, 2 ^ Z.of_nat T * Z.of_nat (fails (T * k)) <= Z.of_nat (256 ^ (T * k)).
Proof.
  induction T as [|T IH].
  - cbn [Nat.mul]. unfold fails, tally. cbn [all_bytes filter]. destruct (loop EmptyString) as [[?|]| |]; cbn; lia.
  - change (S T * k)%nat with (k + T * k)%nat. rewrite fails_step, Nat.pow_add_r, !Nat2Z.inj_mul, Nat2Z.inj_succ, Z.pow_succ_r by lia.
    pose proof rejects_half. assert (0 <= 2 ^ Z.of_nat T) by (apply Z.pow_nonneg; lia).
    set (A := 2 ^ Z.of_nat T) in *. set (F := Z.of_nat (fails (T * k))) in *. set (R := Z.of_nat rejects) in *.
    set (K := Z.of_nat (256 ^ k)) in *. set (M := Z.of_nat (256 ^ (T * k))) in *.
    assert (0 <= F) by (unfold F; lia). assert (0 <= R) by (unfold R; lia). nia.
Qed.
End Int.

(** ** draws and their law *)
(** two draws give their values with the same frequencies over the sources of every length, also
    together with any condition on the bytes that follow *)
Definition law {A B} (d : draw A) (V : A -> Prop) (d' : draw B) (V' : B -> Prop) : Prop :=
  forall a a' G G', V a -> V' a' -> (forall x r, G x r = true -> x = a) -> (forall x r, G' x r = true -> x = a') ->
    (forall L, tally (G a) L = tally (G' a') L) -> forall L, paths d G L = paths d' G' L.

Lemma law_ret : forall A (c c' : A), law (ret_draw c) (eq c) (ret_draw c') (eq c').
Proof. intros A c c' a a' G G' <- <- _ _ E L. unfold paths, ret_draw. apply E. Qed.

Lemma law_bind : forall A B (d : draw A) V (f : A -> draw B) (W : A -> B -> Prop) (pr : B -> A),
  law d V d V -> (forall a a', V a -> V a' -> law (f a) (W a) (f a') (W a')) ->
  (forall a s b r, f a s = Ret (Some (b, r)) -> pr b = a) ->
  law (bind_draw d f) (fun b => V (pr b) /\ W (pr b) b) (bind_draw d f) (fun b => V (pr b) /\ W (pr b) b).
Proof.
  intros A B d V f W pr Hd Hf Hp b b' G G' [Vb Wb] [Vb' Wb'] HG HG' E L.
  set (K := fun (g : B -> string -> bool) (a : A) (rest : string) => match f a rest with Ret (Some (y, r)) => g y r | _ => false end).
  assert (P : forall g, paths (bind_draw d f) g L = paths d (K g) L).
  { intros g. apply tally_ext. intros s _. unfold bind_draw, K. destruct (d s) as [[[a r]|]| |]; reflexivity. }
  rewrite !P. apply (Hd (pr b) (pr b')); auto.
  - intros x r H. unfold K in H. destruct (f x r) as [[[y r']|]| |] eqn:F; try discriminate. apply HG in H. subst y. symmetry. eapply Hp; eauto.
  - intros x r H. unfold K in H. destruct (f x r) as [[[y r']|]| |] eqn:F; try discriminate. apply HG' in H. subst y. symmetry. eapply Hp; eauto.
  - intros L'. apply (Hf (pr b) (pr b') Vb Vb' b b' G G'); auto.
Qed.

(** ** rand.Int *)
Lemma rand_shape : forall max, 1 < max ->
  let bl := bit_len (max - 1) in let k := Z.to_nat ((bl + 7) / 8) in let b := if bl mod 8 =? 0 then 8 else bl mod 8 in
  (0 < k)%nat /\ 1 <= b <= 8 /\ b + 8 * Z.of_nat (k - 1) = bl /\ 2 ^ (bl - 1) < max <= 2 ^ bl /\
  forall src, rand_Int src max = loop k b max src.
Proof.
  intros max Hmax bl k b.
  assert (Hbl : 1 <= bl). { pose proof (bit_len_nonneg (max - 1)). fold bl in H. destruct (Z.eq_dec bl 0) as [E|]; [|lia].
    pose proof (bit_len_bound (max - 1)) as B. fold bl in B. rewrite E in B. cbn in B. lia. }
  assert (Hb : 1 <= b <= 8 /\ (bl + 7) / 8 = (bl - b) / 8 + 1 /\ (bl - b) mod 8 = 0).
  { unfold b. pose proof (Z.mod_pos_bound bl 8 ltac:(lia)) as M. pose proof (Z.div_mod bl 8 ltac:(lia)) as D.
    destruct (Z.eqb_spec (bl mod 8) 0) as [E|E].
    - split; [lia|]. replace (bl - 8) with ((bl / 8 - 1) * 8) by lia. rewrite Z.div_mul, Z.mod_mul by lia. split; [|reflexivity].
      symmetry. apply (Z.div_unique_pos _ _ _ 7); lia.
    - split; [lia|]. replace (bl - bl mod 8) with (bl / 8 * 8) by lia. rewrite Z.div_mul, Z.mod_mul by lia. split; [|reflexivity].
      symmetry. apply (Z.div_unique_pos _ _ _ (bl mod 8 - 1)); lia. }
  destruct Hb as (Hb & Hk & Hm). pose proof (Z.div_mod (bl - b) 8 ltac:(lia)) as D.
  assert (0 <= (bl - b) / 8). { unfold b in *. destruct (Z.eqb_spec (bl mod 8) 0); lia. }
  split; [unfold k; lia|]. split; [exact Hb|]. split; [unfold k; lia|]. split.
  - pose proof (bit_len_bound (max - 1)) as B. fold bl in B. split; [|lia].
    destruct (Z_lt_le_dec (2 ^ (bl - 1)) max) as [|C]; [assumption|exfalso].
    assert (bl <= bl - 1); [|lia]. unfold bl at 1. apply bit_len_le_iff; lia.
  - intros src. unfold rand_Int. destruct (Z.leb_spec max 0); [lia|]. fold bl. destruct (Z.eqb_spec bl 0); [lia|]. reflexivity.
Qed.

Lemma rand_one : forall src, rand_Int src 1 = Ret (Some (0, src)).
Proof. reflexivity. Qed.

Lemma rand_law : forall max, 0 < max -> law (fun src => rand_Int src max) (fun v => 0 <= v < max) (fun src => rand_Int src max) (fun v => 0 <= v < max).
Proof.
  intros max Hmax. destruct (Z.eq_dec max 1) as [->|Hne].
  - intros a a' G G' Ha Ha' _ _ E L. assert (a = 0) by lia. assert (a' = 0) by lia. subst. apply E.
  - destruct (rand_shape max ltac:(lia)) as (Hk & Hb & Hs & Hm & Hr). set (k := Z.to_nat _) in *. set (b := if _ =? 0 then 8 else _) in *.
    intros a a' G G' Ha Ha' HG HG' E L.
    assert (P : forall g, paths (fun src => rand_Int src max) g L = paths (loop k b max) g L).
    { intros g. apply tally_ext. intros s _. cbv beta. now rewrite Hr. }
    rewrite !P. rewrite <- Hs in Hm. now apply (loop_law k b max Hk Hb Hm a a').
Qed.

Lemma rand_answers : forall src max, 0 < max ->
  rand_Int src max = Ret None \/ exists v rest, rand_Int src max = Ret (Some (v, rest)) /\ 0 <= v < max.
Proof.
  intros src max Hmax. destruct (Z.eq_dec max 1) as [->|Hne].
  - right. exists 0, src. split; [reflexivity|lia].
  - destruct (rand_shape max ltac:(lia)) as (Hk & Hb & Hs & Hm & Hr). rewrite Hr. apply rand_fuel; auto.
Qed.
