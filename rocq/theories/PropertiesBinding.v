(** C16 at the level of the exported function (strings in, accumulator and proofs out) and C77 (do the
    Fiat-Shamir transcripts of package proof bind the statement?). *)
From Coq Require Import ZArith Bool Lia String List.
From Verif Require Import GoBig GoBigFacts Spec StrFacts AccModel AccFacts AccProofs HashModel HashProofs PropertiesHash
  FSModel FSProofs PokeModel SquaresModel RangeModel.
Import ListNotations.
Open Scope Z_scope.

(** ** C16 on strings: the base is the setup's G, the modulus its N, and proof i is for string i. *)
Theorem C16_ZKAccumulate_strings : forall sha is_prime poseidon fuel r set e setup,
  (forall l, 0 <= poseidon l) -> 0 < sN setup -> 0 <= r ->
  let run := ZKAccumulate sha is_prime poseidon fuel r set e setup in
  (set = [] -> run = Panic) /\
  forall rep, GenRepresentatives sha is_prime poseidon fuel set e = Ret rep -> set <> [] ->
    exists acc proofs, run = Ret (acc, proofs) /\
      acc = sG setup ^ (r * product rep) mod sN setup /\ length proofs = length set /\
      forall i w x, nth_error proofs i = Some w -> nth_error rep i = Some x -> verifies (sN setup) w x acc.
Proof.
  intros sha is_prime poseidon fuel r set e setup Hpo HN Hr run. subst run. split.
  - intros ->. unfold ZKAccumulate, GenRepresentatives. destruct (e =? _); [reflexivity|]. destruct (e =? _); reflexivity.
  - intros rep E Hne. pose proof (GenRep_length _ _ _ _ _ _ _ E) as L.
    pose proof (GenRep_nonneg sha is_prime poseidon _ _ _ _ Hpo E) as P.
    assert (rep <> []) by (intros ->; destruct set; [now apply Hne|discriminate L]).
    unfold ZKAccumulate. rewrite E. cbn [bind]. eexists _, _. split; [now apply ZKAccumulate_rep_spec|].
    split; [reflexivity|]. split; [now rewrite wit_length|].
    intros i w x Hw Hx. apply wit_nth in Hw. subst w. unfold verifies.
    assert (Q : 0 <= product (without i rep)) by (apply product_nonneg, without_Forall; assumption).
    assert (Hx0 : 0 <= x) by (revert P; rewrite Forall_forall; intros F; apply F; eapply nth_error_In; eauto).
    rewrite pow_mod_mul by nia. rewrite <- Z.mul_assoc, (without_product rep i x Hx). reflexivity.
Qed.
Example C16_strings_case :
  exists rep acc proofs, GenRepresentatives toy_sha toy_prime toy_poseidon 300 ["1"; "2"]%string HashToPrimeFromSha256 = Ret rep /\
    ZKAccumulate toy_sha toy_prime toy_poseidon 300 9 ["1"; "2"]%string HashToPrimeFromSha256 (MkSetup 101 3 5) = Ret (acc, proofs) /\
    acc = 3 ^ (9 * product rep) mod 101 /\ acc <> 5 ^ (9 * product rep) mod 101.
Proof. eexists _, _, _. split; [vm_compute; reflexivity|]. split; [vm_compute; reflexivity|]. split; [vm_compute; reflexivity|]. vm_compute. discriminate. Qed.

(** ** C77. What is hashed for a challenge; two statements with the same bytes get the same challenge. *)
Definition hashed (t : Transcript) : string := written (info t).
Definition prime_challenge_of (sha : string -> string) (is_prime : Z -> bool) (fuel : nat) (t : Transcript) : option Z :=
  match GetPrimeChallenge sha is_prime fuel t with Ret (l, _) => Some l | _ => None end.

Lemma same_hashed : forall sha is_prime fuel t t', hashed t = hashed t' -> maxlength t = maxlength t' ->
  prime_challenge_of sha is_prime fuel t = prime_challenge_of sha is_prime fuel t'.
Proof.
  intros sha is_prime fuel t t' H L. unfold prime_challenge_of, GetPrimeChallenge, FS_HashToPrime. unfold hashed in H. rewrite H, L.
  destruct (fs_loop _ _ _ _ _); reflexivity.
Qed.

(** Refuted: a true statement (5^2 = 25 mod 77) and a false one (5^52 is 58, not 2) over the same group get
    the same prime challenge, for every hash function and primality test. *)
Theorem C77_PoE_binding_refuted : exists base N C x C' x',
  0 <= C < N /\ 0 <= C' < N /\ C = base ^ x mod N /\ C' <> base ^ x' mod N /\
  forall sha is_prime fuel, prime_challenge_of sha is_prime fuel (poe_transcript base N C x) =
    prime_challenge_of sha is_prime fuel (poe_transcript base N C' x').
Proof.
  exists 5, 77, 25, 2, 2, 52. split; [lia|]. split; [lia|]. split; [reflexivity|]. split; [vm_compute; discriminate|].
  intros. apply same_hashed; vm_compute; reflexivity.
Qed.
(** the zero-knowledge proof likewise: statements (u, w) = (5, 25) and (52, 5), the second false for the
    exponent 2 that makes the first true *)
Theorem C77_ZKPoKE_binding_refuted : exists pp u w u' w' x,
  0 <= u < ppN pp /\ 0 <= u' < ppN pp /\ w = u ^ x mod ppN pp /\ w' <> u' ^ x mod ppN pp /\
  forall sha z Ag Au, fst (GetIntChallenge sha (zkpoke_transcript pp u w z Ag Au)) =
    fst (GetIntChallenge sha (zkpoke_transcript pp u' w' z Ag Au)).
Proof.
  exists {| ppN := 77; ppG := 2; ppH := 3 |}, 5, 25, 52, 5, 2. cbn [ppN].
  split; [lia|]. split; [lia|]. split; [reflexivity|]. split; [vm_compute; discriminate|].
  intros. unfold GetIntChallenge, FS_HashToInt, zkpoke_transcript, InitTranscript, info, maxlength, fst. do 2 f_equal.
Qed.
(** and the two interactive-proof families of package proof share one label: an argument of positivity
    and a range proof can have the same challenge *)
Theorem C77_AoP_RP_separation_refuted : exists pp c3 a b c3', a < b /\ forall sha, aop_challenge sha pp c3 = rp_challenge sha pp a b c3'.
Proof.
  exists {| ppN := 77; ppG := 2; ppH := 3 |}, (123, 4, 5), 1, 2, (3, 4, 5). split; [lia|]. intros sha. reflexivity.
Qed.

(** What the transcripts do bind. digits: number of characters of the decimal form. *)
Definition digits (x : Z) : nat := String.length (dec x).

Lemma append_inj_l : forall s t t', (s ++ t = s ++ t')%string -> t = t'.
Proof. induction s as [|a s IH]; cbn; intros t t' H; [exact H|]. injection H as H. now apply IH. Qed.
Lemma append_nil_r' : forall s, (s ++ "")%string = s.
Proof. induction s as [|a s IH]; cbn; [reflexivity|]. now rewrite IH. Qed.

Theorem C77_PoKEStar_binding_partial : forall pp pp' C C',
  map digits [ppG pp; ppN pp] = map digits [ppG pp'; ppN pp'] ->
  hashed (poke_transcript pp C) = hashed (poke_transcript pp' C') ->
  ppG pp = ppG pp' /\ ppN pp = ppN pp' /\ C = C'.
Proof.
  intros pp pp' C C' D H. unfold digits in D. injection D as D1 D2.
  unfold hashed, poke_transcript, InitTranscript, info, written, fold_right in H.
  rewrite !append_nil_r' in H. apply append_inj_l in H.
  apply append_split in H; [|exact D1]. destruct H as [H1 H].
  apply append_split in H; [|exact D2]. destruct H as [H2 H].
  apply dec_inj in H, H1, H2. auto.
Qed.
Theorem C77_PoE_binding_partial : forall base N C x base' N' C' x',
  map digits [base; N; C] = map digits [base'; N'; C'] ->
  hashed (poe_transcript base N C x) = hashed (poe_transcript base' N' C' x') ->
  (base, N, C, x) = (base', N', C', x').
Proof.
  intros base N C x base' N' C' x' D H. unfold digits in D. injection D as D1 D2 D3.
  unfold hashed, poe_transcript, InitTranscript, info, written, fold_right in H.
  rewrite !append_nil_r' in H. apply append_inj_l in H.
  apply append_split in H; [|exact D1]. destruct H as [H1 H].
  apply append_split in H; [|exact D2]. destruct H as [H2 H].
  apply append_split in H; [|exact D3]. destruct H as [H3 H].
  apply dec_inj in H, H1, H2, H3. now subst.
Qed.
Theorem C77_ZKPoKE_binding_partial : forall pp u w z Ag Au pp' u' w' z' Ag' Au',
  map digits [ppG pp; ppH pp; ppN pp; u; w; z; Ag] = map digits [ppG pp'; ppH pp'; ppN pp'; u'; w'; z'; Ag'] ->
  hashed (zkpoke_transcript pp u w z Ag Au) = hashed (zkpoke_transcript pp' u' w' z' Ag' Au') ->
  pp = pp' /\ (u, w, z, Ag, Au) = (u', w', z', Ag', Au').
Proof.
  intros [N G Hh] u w z Ag Au [N' G' Hh'] u' w' z' Ag' Au' D H. cbn [ppG ppH ppN] in D. unfold digits in D.
  injection D as D1 D2 D3 D4 D5 D6 D7.
  unfold hashed, zkpoke_transcript, InitTranscript, info, written, fold_right in H. cbn [ppG ppH ppN] in H.
  rewrite !append_nil_r' in H.
  apply append_inj_l in H.
  apply append_split in H; [|exact D1]. destruct H as [H1 H].
  apply append_split in H; [|exact D2]. destruct H as [H2 H].
  apply append_split in H; [|exact D3]. destruct H as [H3 H].
  apply append_split in H; [|exact D4]. destruct H as [H4 H].
  apply append_split in H; [|exact D5]. destruct H as [H5 H].
  apply append_split in H; [|exact D6]. destruct H as [H6 H].
  apply append_split in H; [|exact D7]. destruct H as [H7 H].
  apply dec_inj in H, H1, H2, H3, H4, H5, H6, H7. now subst.
Qed.
(** both challenges are hashes of a string that begins with the statement proved *)
Theorem C77_statement_label : forall sha pp a b c3,
  (exists rest, aop_challenge sha pp c3 = set_bytes (sha ("c = (g^x)(h^r), x is non-negative" ++ rest)%string)) /\
  (exists rest, rp_challenge sha pp a b c3 = set_bytes (sha ("c = (g^x)(h^r), x is non-negative" ++ rest)%string)).
Proof.
  intros sha pp a b [[c0 c1] c2]. unfold aop_challenge, rp_challenge, statement_string. cbn [written fold_right].
  split; eexists; reflexivity.
Qed.
Example C77_label_case : aop_challenge (fun s => s) {| ppN := 77; ppG := 4; ppH := 9 |} (1, 2, 3) =
  set_bytes "c = (g^x)(h^r), x is non-negative4977123".
Proof. reflexivity. Qed.
(** the challenges of the argument of positivity and of the range proof: [forall sha] says that the same
    bytes are hashed *)
Lemma probe : forall s t : string, (forall sha : string -> string, set_bytes (sha s) = set_bytes (sha t)) -> s = t.
Proof.
  intros s t H. specialize (H (fun x => if String.eqb x s then "1"%string else "2"%string)). cbv beta in H.
  rewrite String.eqb_refl in H. destruct (String.eqb_spec t s) as [E|E]; [now symmetry|]. vm_compute in H. discriminate.
Qed.
Theorem C77_AoP_binding_partial : forall pp pp' c0 c1 c2 c0' c1' c2',
  map digits [ppG pp; ppH pp; ppN pp; c0; c1] = map digits [ppG pp'; ppH pp'; ppN pp'; c0'; c1'] ->
  (forall sha, aop_challenge sha pp (c0, c1, c2) = aop_challenge sha pp' (c0', c1', c2')) ->
  pp = pp' /\ (c0, c1, c2) = (c0', c1', c2').
Proof.
  intros [N G H] [N' G' H'] c0 c1 c2 c0' c1' c2' D E. unfold digits in D. cbn [ppG ppH ppN] in D. injection D as D1 D2 D3 D4 D5.
  unfold aop_challenge in E. apply probe in E. unfold written, fold_right in E. cbn [ppG ppH ppN] in E. rewrite !append_nil_r' in E.
  apply append_inj_l in E.
  apply append_split in E; [|exact D1]. destruct E as [E1 E].
  apply append_split in E; [|exact D2]. destruct E as [E2 E].
  apply append_split in E; [|exact D3]. destruct E as [E3 E].
  apply append_split in E; [|exact D4]. destruct E as [E4 E].
  apply append_split in E; [|exact D5]. destruct E as [E5 E].
  apply dec_inj in E, E1, E2, E3, E4, E5. subst. split; reflexivity.
Qed.
Theorem C77_RP_binding_partial : forall pp pp' a b c0 c1 c2 a' b' c0' c1' c2',
  map digits [ppG pp; ppH pp; ppN pp; a; b; c0; c1] = map digits [ppG pp'; ppH pp'; ppN pp'; a'; b'; c0'; c1'] ->
  (forall sha, rp_challenge sha pp a b (c0, c1, c2) = rp_challenge sha pp' a' b' (c0', c1', c2')) ->
  pp = pp' /\ (a, b) = (a', b') /\ (c0, c1, c2) = (c0', c1', c2').
Proof.
  intros [N G H] [N' G' H'] a b c0 c1 c2 a' b' c0' c1' c2' D E. unfold digits in D. cbn [ppG ppH ppN] in D. injection D as D1 D2 D3 D4 D5 D6 D7.
  unfold rp_challenge in E. apply probe in E. unfold written, fold_right in E. cbn [ppG ppH ppN] in E. rewrite !append_nil_r' in E.
  apply append_inj_l in E.
  apply append_split in E; [|exact D1]. destruct E as [E1 E].
  apply append_split in E; [|exact D2]. destruct E as [E2 E].
  apply append_split in E; [|exact D3]. destruct E as [E3 E].
  apply append_split in E; [|exact D4]. destruct E as [E4 E].
  apply append_split in E; [|exact D5]. destruct E as [E5 E].
  apply append_split in E; [|exact D6]. destruct E as [E6 E].
  apply append_split in E; [|exact D7]. destruct E as [E7 E].
  apply dec_inj in E, E1, E2, E3, E4, E5, E6, E7. subst. repeat split.
Qed.
(** without the premise on the numbers of digits: the ranges [1,234] and [12,34] *)
Theorem C77_RP_binding_refuted : exists pp c3 a b a' b', (a, b) <> (a', b') /\
  forall sha, rp_challenge sha pp a b c3 = rp_challenge sha pp a' b' c3.
Proof.
  exists {| ppN := 77; ppG := 2; ppH := 3 |}, (3, 4, 5), 1, 234, 12, 34. split; [congruence|]. intros sha. reflexivity.
Qed.
Example C77_RP_partial_case : let pp := {| ppN := 77; ppG := 2; ppH := 3 |} in
  map digits [ppG pp; ppH pp; ppN pp; 1; 234; 3; 4] = map digits [ppG pp; ppH pp; ppN pp; 2; 567; 8; 9] /\
  exists sha, rp_challenge sha pp 1 234 (3, 4, 5) <> rp_challenge sha pp 1 235 (3, 4, 5).
Proof. cbv zeta. split; [reflexivity|]. exists (fun s => s). vm_compute. discriminate. Qed.
(** the labels separate the three exponent proofs from one another, whatever the numbers are; and the
    challenges drawn after an integer challenge hash that challenge too *)
Theorem C77_labels_separate : forall pp pp' base N C x C' u w z Ag Au,
  hashed (poke_transcript pp C') <> hashed (poe_transcript base N C x) /\
  hashed (poke_transcript pp C') <> hashed (zkpoke_transcript pp' u w z Ag Au) /\
  hashed (poe_transcript base N C x) <> hashed (zkpoke_transcript pp' u w z Ag Au).
Proof.
  intros. unfold hashed, poke_transcript, poe_transcript, zkpoke_transcript, InitTranscript, info, written, fold_right.
  repeat split; cbn [String.append]; discriminate.
Qed.
Lemma written_app : forall l m, written (l ++ m) = (written l ++ written m)%string.
Proof.
  induction l as [|s l IH]; intros m; [reflexivity|]. cbn [app written fold_right]. fold (written (l ++ m)) (written l). rewrite IH.
  induction s as [|a s IHs]; cbn; [reflexivity|]. now rewrite IHs.
Qed.
Theorem C77_second_challenge : forall sha pp u w z Ag Au,
  let t := zkpoke_transcript pp u w z Ag Au in
  hashed (snd (GetIntChallenge sha t)) = (hashed t ++ dec (fst (GetIntChallenge sha t)))%string.
Proof.
  intros. unfold GetIntChallenge, fst, snd, hashed, Append, info at 1. fold (info t). rewrite written_app. f_equal.
  cbn [written fold_right]. apply append_nil_r'.
Qed.
Example C77_partial_case : digits 25 = digits 58 /\ hashed (poe_transcript 5 77 25 2) <> hashed (poe_transcript 5 77 58 52).
Proof. split; [reflexivity|]. vm_compute. discriminate. Qed.

Print Assumptions C16_ZKAccumulate_strings.
Print Assumptions C77_PoE_binding_refuted.
Print Assumptions C77_ZKPoKE_binding_refuted.
Print Assumptions C77_AoP_RP_separation_refuted.
Print Assumptions C77_PoKEStar_binding_partial.
Print Assumptions C77_PoE_binding_partial.
Print Assumptions C77_ZKPoKE_binding_partial.
Print Assumptions C77_labels_separate.
Print Assumptions C77_second_challenge.
Print Assumptions C77_statement_label.
Print Assumptions C77_AoP_binding_partial.
Print Assumptions C77_RP_binding_partial.
Print Assumptions C77_RP_binding_refuted.
