(** Theorems for properties C83-C87: key files and the Groth16 wrappers.

    Groth16 is any scheme that is [ideal]: honest proofs verify, an accepted proof comes from a satisfying
    assignment with the given public vector, and an honest proof is bound to its key, assignment and public
    vector. [toy] is such a scheme. [sat_ok]: the compiled circuits mean what Define says. *)
From Coq Require Import ZArith Znumtheory Bool Lia Ascii String List.
From Verif Require Import GoBig GoBigFacts Spec AccModel AccFacts StrFacts HashModel HashProofs FSModel FSProofs CircuitModel CircuitProofs
  PropertiesCircuit KeysModel.
Import ListNotations.
Open Scope Z_scope.

(** *** Specification *)
Definition ideal {pkey vkey proof : Type} (g_setup : ccs -> nat -> pkey * vkey) (g_proof : pkey -> ccs -> assignment -> nat -> proof)
    (g_verify : proof -> vkey -> list Z -> bool) (sat : ccs -> assignment -> bool) : Prop :=
  (forall k a s r, fits k a = true -> sat k a = true ->
     g_verify (g_proof (fst (g_setup k s)) k a r) (snd (g_setup k s)) (public_of a) = true) /\
  (forall p k s pub, g_verify p (snd (g_setup k s)) pub = true -> exists a, fits k a = true /\ sat k a = true /\ public_of a = pub) /\
  (forall k a s r k' s' pub, fits k a = true -> g_verify (g_proof (fst (g_setup k s)) k a r) (snd (g_setup k' s')) pub = true ->
     k' = k /\ s' = s /\ sat k a = true /\ pub = public_of a).
Definition sat_ok (poseidon : list Z -> Z) (mulmod : Z -> Z -> Z -> Z -> Prop) (sat : ccs -> assignment -> bool) : Prop :=
  (forall k c, fits k (AMulti c) = true -> (sat k (AMulti c) = true <-> satisfied poseidon mulmod (field_circuit c))) /\
  (forall k c, fits k (AMerkle c) = true -> (sat k (AMerkle c) = true <-> merkle_satisfied poseidon (merkle_field c))).

(** the randomness of the setup whose keys are on disk for a family and a size *)
Definition compiles (f : family) (n : Z) : bool := match f with MultiSwap => 0 <? n | MerkleSwap => true end.
Definition next_setup (f : family) (n : Z) (cur : option nat) (e : event) : option nat :=
  let '(g, m, fresh, rnd) := match e with
    | ESetup g m r => (g, m, true, r)
    | ETest g m _ _ r _ => (g, m, false, r)
    | EContract m r => (MultiSwap, m, false, r)
    | EContract2 m _ _ r _ _ => (MultiSwap, m, true, r)
    end in
  if family_eqb f g && (n =? m) && compiles f n && (fresh || match cur with None => true | Some _ => false end) then Some rnd else cur.
Definition last_setup (l : list event) (f : family) (n : Z) : option nat := fold_left (next_setup f n) l None.
Definition size_of (e : event) : Z := match e with ESetup _ m _ | ETest _ m _ _ _ _ | EContract m _ | EContract2 m _ _ _ _ _ => m end.
Definition sizes_ok (l : list event) : Prop := Forall (fun e => 0 <= size_of e) l.

(** *** Names *)
Lemma name_inj : forall f g n m s t, 0 <= n -> 0 <= m -> no_digit_first s -> no_digit_first t ->
  file_name (prefix_of f) n s = file_name (prefix_of g) m t -> f = g /\ n = m /\ s = t.
Proof.
  intros f g n m s t Hn Hm Hs Ht E. destruct (C60_file_names (prefix_of f) (prefix_of g) n m s t) as (P & -> & ->); auto.
  1,2: destruct f, g; cbn; auto. split; [|auto]. destruct f, g; try reflexivity; discriminate.
Qed.
Definition saved : list string := [".ccs.save"; ".pk.save"; ".vk.save"]%string.
Lemma saved_dot : forall s, In s saved -> no_digit_first s.
Proof. cbn. intros s [<-|[<-|[<-|[]]]]; cbn; unfold is_digit; cbn; lia. Qed.
Lemma family_eqb_spec : forall f g, reflect (f = g) (family_eqb f g).
Proof. intros [] []; cbn; constructor; congruence. Qed.

Section Proofs.
Variables pkey vkey : Type.
Variable g_setup : ccs -> nat -> pkey * vkey.
Notation files := (KeysModel.files pkey vkey).
Notation history := (KeysModel.history pkey vkey g_setup).
Notation do_event := (KeysModel.do_event pkey vkey g_setup).
Notation content := (KeysModel.content pkey vkey).

(** the three files written by a setup *)
Definition key_file (f : family) (n : Z) (s : nat) (sfx : string) : option content :=
  if String.eqb sfx ".ccs.save" then Some (FCCS pkey vkey (f, n))
  else if String.eqb sfx ".pk.save" then Some (FPK pkey vkey (fst (g_setup (f, n) s)))
  else Some (FVK pkey vkey (snd (g_setup (f, n) s))).
Lemma write_eq : forall (fs : files) n c, write pkey vkey fs n c n = Some c.
Proof. intros. unfold write. now rewrite String.eqb_refl. Qed.
Lemma write_neq : forall (fs : files) n m c, m <> n -> write pkey vkey fs n c m = fs m.
Proof. intros. unfold write. destruct (String.eqb_spec m n); congruence. Qed.
Lemma dump_read : forall (fs : files) g m r f n sfx, 0 <= n -> 0 <= m -> In sfx saved ->
  dump pkey vkey g_setup fs (g, m) r (file_name (prefix_of f) n sfx) =
  if family_eqb f g && (n =? m) then key_file g m r sfx else fs (file_name (prefix_of f) n sfx).
Proof.
  intros fs g m r f n sfx Hn Hm Hs. unfold dump. destruct (g_setup (g, m) r) as [pk vk] eqn:E. cbn [fst snd].
  assert (D : (f = g /\ n = m) \/ ~ (f = g /\ n = m)) by (destruct f, g; destruct (Z.eq_dec n m); intuition congruence).
  destruct D as [[-> ->]|D].
  - rewrite Z.eqb_refl. replace (family_eqb g g) with true by (now destruct g). cbn [andb]. unfold key_file. rewrite E. cbn [fst snd].
    assert (N : forall s t, In s saved -> In t saved -> s <> t -> file_name (prefix_of g) m s <> file_name (prefix_of g) m t).
    { intros s t Is It NE EE. apply NE. apply (name_inj g g m m s t); auto using saved_dot. }
    cbn in Hs. destruct Hs as [<-|[<-|[<-|[]]]]; cbn [String.eqb Ascii.eqb Bool.eqb].
    + rewrite !write_neq by (apply N; cbn; auto; discriminate). apply write_eq.
    + rewrite write_neq by (apply N; cbn; auto; discriminate). apply write_eq.
    + apply write_eq.
  - replace (family_eqb f g && (n =? m)) with false.
    2:{ destruct (family_eqb_spec f g), (Z.eqb_spec n m); cbn; tauto. }
    assert (N : forall t, In t saved -> file_name (prefix_of f) n sfx <> file_name (prefix_of g) m t).
    { intros t It EE. apply D. apply name_inj in EE; auto using saved_dot. tauto. }
    rewrite !write_neq by (apply N; cbn; auto). reflexivity.
Qed.
Lemma other_name : forall f n sfx t, match t with String a _ => a <> "z"%char /\ a <> "m"%char | EmptyString => True end ->
  file_name (prefix_of f) n sfx <> t.
Proof. intros f n sfx t H E. subst t. destruct f; cbn in H; tauto. Qed.

(** the invariant of the directory *)
Definition key_files (fs : files) (f : family) (n : Z) (cur : option nat) : Prop :=
  forall sfx, In sfx saved -> fs (file_name (prefix_of f) n sfx) = match cur with Some s => key_file f n s sfx | None => None end.
Lemma exist_iff : forall fs f n cur, key_files fs f n cur ->
  isCircuitExist pkey vkey fs f n = match cur with Some _ => true | None => false end.
Proof. intros fs f n cur K. unfold isCircuitExist. rewrite K by (cbn; auto). destruct cur; reflexivity. Qed.
Lemma setup_files : forall fs g m r f n cur, 0 <= n -> 0 <= m -> key_files fs f n cur ->
  key_files (match SetupZkMultiswap pkey vkey g_setup fs g m r with Ret fs' => fs' | _ => fs end) f n
    (if family_eqb f g && (n =? m) && compiles f n then Some r else cur).
Proof.
  intros fs g m r f n cur Hn Hm K.
  assert (D : key_files (dump pkey vkey g_setup fs (g, m) r) f n (if family_eqb f g && (n =? m) then Some r else cur)).
  { intros sfx Hs. rewrite dump_read by assumption. destruct (family_eqb_spec f g), (Z.eqb_spec n m); cbn [andb]; try (apply K; assumption). now subst. }
  unfold SetupZkMultiswap, compiles. destruct g.
  - destruct (Z.leb_spec m 0); cbn match.
    + destruct (family_eqb_spec f MultiSwap), (Z.eqb_spec n m); cbn [andb]; try assumption. subst. destruct (Z.ltb_spec 0 m); [lia|assumption].
    + destruct f; cbn [family_eqb andb] in *; [|assumption]. destruct (Z.eqb_spec n m); cbn [andb] in *; [|assumption].
      destruct (Z.ltb_spec 0 n); [assumption|lia].
  - destruct f; cbn [family_eqb andb] in *; [assumption|]. now rewrite andb_true_r.
Qed.
Lemma if_missing_files : forall fs g m r f n cur, 0 <= n -> 0 <= m -> (forall h k, 0 <= k -> exists c, key_files fs h k c) -> key_files fs f n cur ->
  key_files (after_setup_if_missing pkey vkey g_setup fs g m r) f n
    (if family_eqb f g && (n =? m) && compiles f n && match cur with None => true | Some _ => false end then Some r else cur).
Proof.
  intros fs g m r f n cur Hn Hm KA K. unfold after_setup_if_missing. destruct (KA g m Hm) as [c Kc]. rewrite (exist_iff _ _ _ _ Kc).
  pose proof (setup_files fs g m r f n cur Hn Hm K) as S.
  destruct (family_eqb_spec f g) as [->|]; [destruct (Z.eqb_spec n m) as [->|]|]; cbn [andb] in *.
  - assert (C : cur = None <-> c = None).
    { specialize (K ".ccs.save"%string ltac:(cbn; auto)). specialize (Kc ".ccs.save"%string ltac:(cbn; auto)). rewrite K in Kc.
      destruct cur, c; cbn in Kc; try discriminate; split; congruence. }
    destruct c; destruct cur; try (exfalso; destruct C as [C1 C2]; (discriminate (C1 eq_refl) || discriminate (C2 eq_refl))).
    + now rewrite andb_false_r.
    + rewrite andb_true_r. exact S.
  - destruct c; assumption.
  - destruct c; assumption.
Qed.
Lemma write_other : forall fs f n cur t c, match t with String a _ => a <> "z"%char /\ a <> "m"%char | EmptyString => True end ->
  key_files fs f n cur -> key_files (write pkey vkey fs t c) f n cur.
Proof. intros fs f n cur t c Ht K sfx Hs. rewrite write_neq by (now apply other_name). now apply K. Qed.

Theorem history_files : forall l, sizes_ok l -> forall f n, 0 <= n -> key_files (history l) f n (last_setup l f n).
Proof.
  intros l. induction l as [|e l IH] using rev_ind; intros HL f n Hn.
  - intros sfx _. reflexivity.
  - apply Forall_app in HL. destruct HL as [HL He]. inversion He as [|? ? H0 _]; subst. specialize (IH HL).
    unfold KeysModel.history, last_setup. rewrite !fold_left_app. cbn [fold_left]. fold (history l). fold (last_setup l f n).
    assert (KA : forall h k, 0 <= k -> exists c, key_files (history l) h k c) by (intros; eexists; apply IH; assumption).
    assert (Q : forall a b : bool, a && b = a && (false || b)) by reflexivity.
    destruct e as [g m r|g m st mid rs rp|m rs|m st mid r1 r2 rp]; cbn [size_of] in H0; cbn [KeysModel.do_event next_setup].
    + rewrite orb_true_l, andb_true_r. apply setup_files; auto.
    + rewrite orb_false_l. apply if_missing_files; auto.
    + rewrite orb_false_l. unfold OutputSmartContract.
      pose proof (if_missing_files (history l) MultiSwap m rs f n _ Hn H0 KA (IH f n Hn)) as J.
      unfold after_setup_if_missing in *. destruct (isCircuitExist pkey vkey (history l) MultiSwap m); cbn [negb bind] in *.
      * destruct (read_vk _ _ _ _); [|exact J]. apply write_other; [split; discriminate|exact J].
      * destruct (SetupZkMultiswap pkey vkey g_setup (history l) MultiSwap m rs); cbn [bind] in *; try exact J.
        destruct (read_vk _ _ _ _); [|exact J]. apply write_other; [split; discriminate|exact J].
    + rewrite orb_true_l, andb_true_r. pose proof (setup_files (history l) MultiSwap m r1 f n _ Hn H0 (IH f n Hn)) as J.
      destruct (SetupZkMultiswap pkey vkey g_setup (history l) MultiSwap m r1); try exact J.
      destruct (g_setup (MultiSwap, m) r2). repeat (apply write_other; [split; discriminate|]). exact J.
Qed.
End Proofs.

(** *** An ideal scheme: the proof carries the assignment and the key *)
Section Toy.
Variable sat : ccs -> assignment -> bool.
Definition ccs_eq_dec : forall a b : ccs, {a = b} + {a <> b}.
Proof. intros [f n] [g m]. destruct (Z.eq_dec n m); destruct f, g; ((left; congruence) || (right; congruence)). Defined.
Definition key_eq_dec : forall a b : ccs * nat, {a = b} + {a <> b}.
Proof. intros [a i] [b j]. destruct (ccs_eq_dec a b), (Nat.eq_dec i j); ((left; congruence) || (right; congruence)). Defined.
Definition toy_setup (k : ccs) (s : nat) : (ccs * nat) * (ccs * nat) := ((k, s), (k, s)).
Definition toy_proof (pk : ccs * nat) (k : ccs) (a : assignment) (r : nat) : (ccs * nat) * assignment * nat := (pk, a, r).
Definition toy_verify (p : (ccs * nat) * assignment * nat) (vk : ccs * nat) (pub : list Z) : bool :=
  let '(key, a, _) := p in
  (if key_eq_dec key vk then true else false) && fits (fst vk) a && sat (fst vk) a && (if list_eq_dec Z.eq_dec pub (public_of a) then true else false).
Lemma toy_ideal : ideal toy_setup toy_proof toy_verify sat.
Proof.
  split; [|split].
  - intros k a s r F S. unfold toy_verify, toy_proof, toy_setup. cbn [fst snd]. destruct (key_eq_dec (k, s) (k, s)) as [_|N]; [|congruence].
    rewrite F, S. destruct (list_eq_dec Z.eq_dec (public_of a) (public_of a)); [reflexivity|congruence].
  - intros [[key a] r] k s pub H. unfold toy_verify, toy_setup in H. cbn [fst snd] in H.
    apply andb_prop in H. destruct H as [H H4]. apply andb_prop in H. destruct H as [H H3]. apply andb_prop in H.
    destruct H as [_ H2]. exists a. split; [assumption|]. split; [assumption|]. destruct (list_eq_dec _ pub _); [auto|discriminate].
  - intros k a s r k' s' pub _ H. unfold toy_verify, toy_proof, toy_setup in H. cbn [fst snd] in H.
    apply andb_prop in H. destruct H as [H H4]. apply andb_prop in H. destruct H as [H H3]. apply andb_prop in H.
    destruct H as [H1 H2]. destruct (key_eq_dec (k, s) (k', s')) as [E|]; [|discriminate]. injection E as <- <-.
    destruct (list_eq_dec _ pub _); [auto|discriminate].
Qed.
End Toy.

(** satisfaction is decidable for the exact MulModP *)
Section Decide.
Variable poseidon : list Z -> Z.
Lemma user_loop_dec : forall c l r1 r2 s,
  {x : Z * Z * Z | forall a b t, user_loop poseidon exact_mulmod c l r1 r2 s a b t <-> x = (a, b, t)} +
  {forall a b t, ~ user_loop poseidon exact_mulmod c l r1 r2 s a b t}.
Proof.
  intros c l. induction l as [|r l IH]; intros r1 r2 s; cbn [user_loop].
  - left. exists (r1, r2, s). intros a b t. split; [intros (-> & -> & ->); reflexivity|]. intros [= -> -> ->]. auto.
  - cbv zeta. destruct (Z_lt_dec 0 (ChallengeL1 c)) as [P1|P1].
    2:{ right. intros a b t (m1 & m2 & [Q _] & _). contradiction. }
    destruct (Z_lt_dec 0 (ChallengeL2 c)) as [P2|P2].
    2:{ right. intros a b t (m1 & m2 & _ & [Q _] & _). contradiction. }
    set (x1 := (r1 * fadd (poseidon [r_id r; r_ob r; r_oe r; r_oh r]) (DeltaModL1 c)) mod ChallengeL1 c).
    set (x2 := (r2 * fadd (poseidon [r_id r; r_ub r; CurrentEpochNum c; poseidon [r_id r; r_ob r; r_oe r; r_oh r]]) (DeltaModL2 c)) mod ChallengeL2 c).
    destruct (IH x1 x2 (fadd (fsub s (r_ob r)) (r_ub r))) as [[x Hx]|N].
    + left. exists x. intros a b t. rewrite <- Hx. split.
      * intros (m1 & m2 & [_ ->] & [_ ->] & H). exact H.
      * intros H. exists x1, x2. split; [split; [exact P1|reflexivity]|]. split; [split; [exact P2|reflexivity]|exact H].
    + right. intros a b t (m1 & m2 & [_ ->] & [_ ->] & H). exact (N _ _ _ H).
Qed.
Lemma randomizer_loop_dec : forall c l r1 r2,
  {x : Z * Z | forall a b, randomizer_loop poseidon exact_mulmod c l r1 r2 a b <-> x = (a, b)} +
  {forall a b, ~ randomizer_loop poseidon exact_mulmod c l r1 r2 a b}.
Proof.
  intros c l. induction l as [|i l IH]; intros r1 r2; cbn [randomizer_loop].
  - left. exists (r1, r2). intros a b. split; [intros (-> & ->); reflexivity|]. intros [= -> ->]. auto.
  - destruct (Z_lt_dec 0 (ChallengeL1 c)) as [P1|P1].
    2:{ right. intros a b (m1 & m2 & [Q _] & _). contradiction. }
    destruct (Z_lt_dec 0 (ChallengeL2 c)) as [P2|P2].
    2:{ right. intros a b (m1 & m2 & _ & [Q _] & _). contradiction. }
    set (x1 := (r1 * poseidon [Randomizer1 c; i]) mod ChallengeL1 c). set (x2 := (r2 * poseidon [Randomizer2 c; i]) mod ChallengeL2 c).
    destruct (IH x1 x2) as [[x Hx]|N].
    + left. exists x. intros a b. rewrite <- Hx. split.
      * intros (m1 & m2 & [_ ->] & [_ ->] & H). exact H.
      * intros H. exists x1, x2. split; [split; [exact P1|reflexivity]|]. split; [split; [exact P2|reflexivity]|exact H].
    + right. intros a b (m1 & m2 & [_ ->] & [_ ->] & H). exact (N _ _ H).
Qed.
Lemma increasing_dec : forall l, {increasing_ids l} + {~ increasing_ids l}.
Proof.
  induction l as [|a [|b l] IH]; [left; exact I|left; exact I|]. change (increasing_ids (a :: b :: l)) with (AssertIsLess (r_id a) (r_id b) /\ increasing_ids (b :: l)).
  unfold AssertIsLess. destruct (Z_lt_dec (r_id a) (r_id b)); [|right; tauto]. destruct IH; [left|right]; tauto.
Qed.
Lemma satisfied_dec : forall c, {satisfied poseidon exact_mulmod c} + {~ satisfied poseidon exact_mulmod c}.
Proof.
  intros c. unfold satisfied, Define.
  destruct (rows_of _ _ _ _ _) as [rows| |]; cbn [bind]; [|right; intros (P & H & _); discriminate..].
  destruct (go_index (OriginalBalances c) 0) as [ob| |]; cbn [bind]; [|right; intros (P & H & _); discriminate..].
  destruct (go_index (UpdatedBalances c) 0) as [ub| |]; cbn [bind]; [|right; intros (P & H & _); discriminate..].
  match goal with |- {exists P, Ret ?Q = Ret P /\ P} + {_} => enough (D : {Q} + {~ Q}) by
    (destruct D as [D|D]; [left; exists Q; auto|right; intros (P & [= <-] & H); exact (D H)]) end.
  assert (AND : forall A B : Prop, {A} + {~ A} -> {B} + {~ B} -> {A /\ B} + {~ (A /\ B)}) by (intros A B [] []; ((left; tauto) || (right; tauto))).
  unfold ToBinary, AssertIsLess.
  repeat (apply AND; [first [apply Z_lt_dec|apply Nat.eq_dec|apply increasing_dec]|]). apply AND.
  { apply Forall_dec. intros r. unfold ToBinary, AssertIsLess. repeat apply AND; apply Z_lt_dec. }
  destruct (user_loop_dec c rows 1 1 (fadd (fsub (OriginalSum c) ob) ub)) as [[[[a b] t] H1]|N].
  2:{ right. intros (? & ? & ? & ? & ? & H & _). exact (N _ _ _ H). }
  destruct (randomizer_loop_dec c eight a b) as [[[a' b'] H2]|N].
  2:{ right. intros (x & y & z & ? & ? & H & H' & _). apply H1 in H. injection H as <- <- <-. exact (N _ _ H'). }
  destruct (Z.eq_dec a' (RemainderR1 c)) as [E1|E1]; [destruct (Z.eq_dec b' (RemainderR2 c)) as [E2|E2]; [destruct (Z.eq_dec t (UpdatedSum c)) as [E3|E3]|]|];
    [left; exists a, b, t, a', b'; split; [now apply H1|]; split; [now apply H2|auto]|right..];
    intros (x & y & z & x' & y' & H & H' & G1 & G2 & G3); apply H1 in H; injection H as <- <- <-; apply H2 in H'; injection H' as <- <-; contradiction.
Qed.
Lemma merkle_dec : forall c, {merkle_satisfied poseidon c} + {~ merkle_satisfied poseidon c}.
Proof.
  intros [ins outs]. unfold merkle_satisfied. cbn [TestInputs TestOutputs].
  revert outs. induction ins as [|x ins IH]; intros outs; cbn [MerkleDefine]; [left; exists True; auto|].
  destruct outs as [|o outs]; [right; intros (P & H & _); discriminate|]. destruct (IH outs) as [D|D].
  - destruct (Z.eq_dec (merkle_chain poseidon TreeDepth x (poseidon [x; x])) o) as [E|E].
    + left. destruct D as (P & -> & HP). cbn [bind]. eexists. split; [reflexivity|]. auto.
    + right. intros (P & H & HP). destruct (MerkleDefine poseidon ins outs); cbn [bind] in H; try discriminate. injection H as <-. tauto.
  - right. intros (P & H & HP). apply D. destruct (MerkleDefine poseidon ins outs) as [Q| |]; cbn [bind] in H; try discriminate. injection H as <-. exists Q. tauto.
Qed.
Definition toy_sat (k : ccs) (a : assignment) : bool :=
  match a with
  | AMulti c => if satisfied_dec (field_circuit c) then true else false
  | AMerkle c => if merkle_dec (merkle_field c) then true else false
  end.
Lemma toy_sat_ok : sat_ok poseidon exact_mulmod toy_sat.
Proof.
  split; intros k c _; cbn [toy_sat]; [destruct (satisfied_dec _)|destruct (merkle_dec _)]; split; intros; try assumption; try reflexivity; try discriminate; contradiction.
Qed.
End Decide.

(** *** C83 *)
Definition same_public (q : PublicInfo) (u : UpdateSet32) : Prop :=
  Forall2 (fun x y => x mod fr_modulus = y mod fr_modulus) (components q)
    [u_L1 u; u_L2 u; u_R1 u; u_R2 u; u_Epoch u; u_D1 u; u_D2 u].
Lemma fits_copied : forall u, well_formed u -> fits (MultiSwap, Z.of_nat (length (u_ID u))) (AMulti (copied u)) = true.
Proof.
  intros u (_ & L1 & L2 & L3 & L4). cbn -[Z.of_nat]. rewrite L1, L2, L3, L4, !Z.eqb_refl. reflexivity.
Qed.
Lemma public_eq_iff : forall u q, well_formed u -> (GenPublicWitness q = public_of (AMulti (copied u)) <-> same_public q u).
Proof.
  intros u q W. unfold same_public. rewrite <- (proj2 (proj2 (C57_public_witness u (copied u) (proj2 (proj2 (C51_is_valid u)) W))) q).
  unfold VerifyPublicWitness, NewWitness, GenPublicWitness. cbn [fst public_of].
  generalize (public_vector (AssignCircuitHelper q)), (public_vector (copied u)). intros x y.
  destruct (list_eq_dec Z.eq_dec y x) as [D|D]; split; intros; try reflexivity; try discriminate; try (symmetry; assumption).
  exfalso. apply D. symmetry. assumption.
Qed.

Section Main.
Variables pkey vkey proof : Type.
Variable g_setup : ccs -> nat -> pkey * vkey.
Variable g_proof : pkey -> ccs -> assignment -> nat -> proof.
Variable g_verify : proof -> vkey -> list Z -> bool.
Variable sat : ccs -> assignment -> bool.
Variable poseidon : list Z -> Z.
Variable mulmod : Z -> Z -> Z -> Z -> Prop.
Notation history := (KeysModel.history pkey vkey g_setup).
Notation Prove := (KeysModel.Prove pkey vkey proof g_proof sat).
Notation Verify := (KeysModel.Verify pkey vkey proof g_verify).
Notation MerkleProve := (KeysModel.MerkleProve pkey vkey proof g_proof sat poseidon).
Notation MerkleVerify := (KeysModel.MerkleVerify pkey vkey proof g_verify poseidon).

Lemma prove_eq : forall l u r, sizes_ok l ->
  Prove (history l) u r =
  match last_setup l MultiSwap (Z.of_nat (length (u_ID u))) with
  | None => Ret None
  | Some s => let k := (MultiSwap, Z.of_nat (length (u_ID u))) in
      do c <- AssignCircuit u; Ret (ProveRoll pkey proof g_proof sat true k (fst (g_setup k s)) (AMulti c) r)
  end.
Proof using pkey vkey proof g_setup g_proof sat.
  intros l u r HL. unfold KeysModel.Prove, read_pk, read_ccs.
  pose proof (history_files pkey vkey g_setup l HL MultiSwap (Z.of_nat (length (u_ID u))) ltac:(lia)) as K. cbn [prefix_of] in K.
  pose proof (K ".pk.save"%string ltac:(cbn; auto)) as K1. cbn [prefix_of] in K1. rewrite K1.
  pose proof (K ".ccs.save"%string ltac:(cbn; auto)) as K2. cbn [prefix_of] in K2. rewrite K2.
  destruct (last_setup l MultiSwap (Z.of_nat (length (u_ID u)))) as [s|]; reflexivity.
Qed.
Lemma verify_eq : forall l p n q, sizes_ok l -> 0 <= n ->
  Verify (history l) p n q =
  match last_setup l MultiSwap n with None => Panic | Some s => Ret (g_verify p (snd (g_setup (MultiSwap, n) s)) (GenPublicWitness q)) end.
Proof using pkey vkey proof g_setup g_verify.
  intros l p n q HL Hn. unfold KeysModel.Verify, read_vk.
  pose proof (history_files pkey vkey g_setup l HL MultiSwap n Hn ".vk.save"%string ltac:(cbn; auto)) as K. cbn [prefix_of] in K. rewrite K.
  destruct (last_setup l MultiSwap n); reflexivity.
Qed.
Lemma merkle_prove_eq : forall l n r, sizes_ok l -> 0 <= n ->
  MerkleProve (history l) n r =
  match last_setup l MerkleSwap n with
  | None => None
  | Some s => ProveRoll pkey proof g_proof sat true (MerkleSwap, n) (fst (g_setup (MerkleSwap, n) s)) (AMerkle (MerkleAssign poseidon (Z.to_nat n))) r
  end.
Proof.
  intros l n r HL Hn. unfold KeysModel.MerkleProve, read_pk, read_ccs.
  pose proof (history_files pkey vkey g_setup l HL MerkleSwap n Hn) as K.
  pose proof (K ".pk.save"%string ltac:(cbn; auto)) as K1. cbn [prefix_of] in K1. rewrite K1.
  pose proof (K ".ccs.save"%string ltac:(cbn; auto)) as K2. cbn [prefix_of] in K2. rewrite K2.
  destruct (last_setup l MerkleSwap n); reflexivity.
Qed.
Lemma merkle_verify_eq : forall l p n, sizes_ok l -> 0 <= n ->
  MerkleVerify (history l) p n =
  match last_setup l MerkleSwap n with
  | None => Panic
  | Some s => Ret (g_verify p (snd (g_setup (MerkleSwap, n) s)) (public_of (AMerkle (MerkleAssign poseidon (Z.to_nat n)))))
  end.
Proof.
  intros l p n HL Hn. unfold KeysModel.MerkleVerify, read_vk.
  pose proof (history_files pkey vkey g_setup l HL MerkleSwap n Hn ".vk.save"%string ltac:(cbn; auto)) as K. cbn [prefix_of] in K. rewrite K.
  destruct (last_setup l MerkleSwap n); reflexivity.
Qed.

(** after any history in which keys for the size of u were made, Prove gives a proof. Verify accepts it, now and
    after anything that happens later, exactly for this size, for the public part of u (modulo the field), if u
    satisfies the circuit, and as long as the keys of this size have not been replaced *)
Theorem C83_prove_verify : ideal g_setup g_proof g_verify sat -> sat_ok poseidon mulmod sat ->
  forall l u r s, let n := Z.of_nat (length (u_ID u)) in
  sizes_ok l -> well_formed u -> last_setup l MultiSwap n = Some s ->
  exists p, Prove (history l) u r = Ret (Some p) /\
  forall l' n' q, sizes_ok l' -> 0 <= n' ->
    (Verify (history (l ++ l')) p n' q = Ret true <->
     n' = n /\ same_public q u /\ satisfied poseidon mulmod (field_circuit (copied u)) /\ last_setup (l ++ l') MultiSwap n = Some s).
Proof using pkey vkey proof g_setup g_proof g_verify sat poseidon mulmod.
  intros (GC & GS & GB) (SM & _) l u r s n HL HW HS. rewrite prove_eq by assumption. fold n. rewrite HS.
  rewrite (proj2 (proj2 (C51_is_valid u)) HW). cbn [bind]. cbv zeta. unfold ProveRoll. pose proof (fits_copied u HW) as F. fold n in F. rewrite F.
  rewrite orb_true_r. cbn [negb]. eexists. split; [reflexivity|]. intros l' n' q HL' Hn'.
  rewrite verify_eq; [|apply Forall_app; auto|assumption]. split.
  - destruct (last_setup (l ++ l') MultiSwap n') as [s'|] eqn:E; [|discriminate]. intros [= H]. apply GB in H; [|assumption].
    destruct H as ([= ->] & -> & S & P). split; [reflexivity|]. split; [now apply public_eq_iff|]. split; [now apply SM in S|exact E].
  - intros (-> & P & S & E). rewrite E. f_equal. apply public_eq_iff in P; [|assumption]. rewrite P. apply GC; [assumption|]. now apply SM.
Qed.

(** the test drivers pass on every directory, whatever happened before, and leave the directory in the state
    used for histories *)
Theorem C83_tests : ideal g_setup g_proof g_verify sat -> sat_ok poseidon mulmod sat ->
  mulmod_sound mulmod -> mulmod_complete mulmod -> (forall l, in_fr (poseidon l)) ->
  forall l rs rp, sizes_ok l ->
  (forall sha is_prime fuel size setup m, (forall x, is_prime x = true -> 0 < x) -> 2 <= size <= 2 ^ 31 ->
     forall u, GenTestSet poseidon sha is_prime fuel (Z.to_nat size) setup m = Ret u -> no_wrap poseidon (copied u) ->
     TestMultiSwap pkey vkey proof g_setup g_proof g_verify sat poseidon sha is_prime fuel (history l) size setup m rs rp =
     Ret (history (l ++ [ETest MultiSwap size setup m rs rp]), true)) /\
  (forall size setup m, 0 <= size <= 2 ^ 32 ->
     TestMerkleMultiSwap pkey vkey proof g_setup g_proof g_verify sat poseidon (history l) size rs rp =
     Ret (history (l ++ [ETest MerkleSwap size setup m rs rp]), true)).
Proof.
  intros (GC & GS & GB) SO MS MC HP l rs rp HL. split.
  - intros sha is_prime fuel size setup m HI Hs u HG NW. set (l' := l ++ [ETest MultiSwap size setup m rs rp]).
    assert (HL' : sizes_ok l') by (apply Forall_app; split; [assumption|repeat constructor; cbn; lia]).
    destruct (C55_honest_partial poseidon mulmod sha is_prime fuel (Z.to_nat size) setup m MS MC HP HI ltac:(lia) ltac:(lia)) as [_ H].
    destruct (H u HG) as (c & A & U & _ & _ & _ & S).
    assert (W : well_formed u).
    { apply C51_is_valid. destruct (IsValid u) eqn:E; [reflexivity|]. unfold AssignCircuit in A. rewrite E in A. discriminate. }
    rewrite (proj2 (proj2 (C51_is_valid u)) W) in A. injection A as <-. specialize (S NW). cbn [users copied UserID] in U. unfold users in U. cbn in U.
    assert (N : Z.of_nat (length (u_ID u)) = size) by lia.
    assert (E : exists s, last_setup l' MultiSwap size = Some s).
    { unfold l', last_setup. rewrite fold_left_app. cbn [fold_left next_setup]. rewrite Z.eqb_refl. cbn [family_eqb andb compiles orb].
      destruct (Z.ltb_spec 0 size); [|lia]. cbn [andb]. destruct (fold_left _ l None); eauto. }
    destruct E as [s E].
    unfold TestMultiSwap.
    assert (Q : (if negb (isCircuitExist pkey vkey (history l) MultiSwap size) then SetupZkMultiswap pkey vkey g_setup (history l) MultiSwap size rs else Ret (history l)) =
      Ret (history l')).
    { unfold l', KeysModel.history. rewrite fold_left_app. cbn [fold_left do_event]. fold (history l). unfold after_setup_if_missing.
      destruct (isCircuitExist _ _ _ _ _); cbn [negb]; [reflexivity|]. unfold SetupZkMultiswap. destruct (Z.leb_spec size 0); [lia|reflexivity]. }
    rewrite Q. cbn [bind]. rewrite HG. cbn [bind].
    pose proof (C83_prove_verify (conj GC (conj GS GB)) SO l' u rp s HL' W) as PV. cbv zeta in PV. rewrite N in PV. specialize (PV E).
    destruct PV as (p & -> & V). cbn [bind]. specialize (V [] size (PublicPart u) ltac:(constructor) ltac:(lia)). rewrite app_nil_r in V.
    rewrite (proj2 V); [reflexivity|]. split; [reflexivity|]. split; [|split; [exact S|exact E]].
    repeat constructor.
  - intros size setup m Hs. set (l' := l ++ [ETest MerkleSwap size setup m rs rp]).
    assert (HL' : sizes_ok l') by (apply Forall_app; split; [assumption|repeat constructor; cbn; lia]).
    assert (E : exists s, last_setup l' MerkleSwap size = Some s).
    { unfold l', last_setup. rewrite fold_left_app. cbn [fold_left next_setup]. rewrite Z.eqb_refl. cbn [family_eqb andb compiles orb].
      destruct (fold_left _ l None); eauto. }
    destruct E as [s E].
    unfold TestMerkleMultiSwap.
    assert (Q : (if negb (isCircuitExist pkey vkey (history l) MerkleSwap size) then SetupZkMultiswap pkey vkey g_setup (history l) MerkleSwap size rs else Ret (history l)) =
      Ret (history l')).
    { unfold l', KeysModel.history. rewrite fold_left_app. cbn [fold_left do_event]. fold (history l). unfold after_setup_if_missing.
      destruct (isCircuitExist _ _ _ _ _); cbn [negb]; reflexivity. }
    rewrite Q. cbn [bind]. rewrite merkle_prove_eq, E by (auto; lia). unfold ProveRoll.
    set (c := MerkleAssign poseidon (Z.to_nat size)).
    destruct (proj1 (proj2 (C59_merkle poseidon)) (Z.to_nat size)) as (_ & _ & L1 & L2). fold c in L1, L2.
    assert (F : fits (MerkleSwap, size) (AMerkle c) = true).
    { cbn -[Z.of_nat c]. rewrite L1, L2, Z2Nat.id by lia. now rewrite Z.eqb_refl. }
    rewrite F, orb_true_r. cbn [negb]. rewrite merkle_verify_eq, E by (auto; lia). cbn [bind]. fold c. rewrite GC; [reflexivity|exact F|].
    apply SO; [exact F|]. apply C59_merkle; [exact HP|lia].
Qed.

(** *** C84: exactly when Prove reports an error, and what Verify says about the rest *)
Theorem C84_prove_errors_partial : ideal g_setup g_proof g_verify sat -> sat_ok poseidon mulmod sat ->
  forall l u r, let n := Z.of_nat (length (u_ID u)) in sizes_ok l ->
  (Prove (history l) u r = Ret None <-> last_setup l MultiSwap n = None) /\
  (Prove (history l) u r = Panic <-> last_setup l MultiSwap n <> None /\ ~ well_formed u) /\
  Prove (history l) u r <> OutOfFuel /\
  (forall p l' q, Prove (history l) u r = Ret (Some p) -> sizes_ok l' -> ~ satisfied poseidon mulmod (field_circuit (copied u)) ->
     forall n', 0 <= n' -> Verify (history (l ++ l')) p n' q <> Ret true).
Proof.
  intros GI SO l u r n HL. pose proof (C51_is_valid u) as (V & AP & AR).
  assert (D : well_formed u \/ ~ well_formed u).
  { destruct (IsValid u) eqn:E; [left; now apply V|right; intros W; apply V in W; congruence]. }
  rewrite prove_eq by assumption. fold n. destruct (last_setup l MultiSwap n) as [s|] eqn:E.
  - destruct D as [D|D].
    + rewrite (AR D). cbn [bind]. cbv zeta. unfold ProveRoll. pose proof (fits_copied u D) as F. fold n in F. rewrite F, orb_true_r. cbn [negb].
      split; [split; discriminate|]. split; [split; [discriminate|tauto]|]. split; [discriminate|]. intros p l' q [= <-] HL' NS n' Hn' HV.
      destruct (C83_prove_verify GI SO l u r s HL D E) as (p & HP & H). rewrite prove_eq in HP by assumption. fold n in HP. rewrite E, (AR D) in HP.
      cbn [bind] in HP. cbv zeta in HP. unfold ProveRoll in HP. rewrite F, orb_true_r in HP. cbn [negb] in HP. injection HP as <-.
      apply H in HV; [|assumption..]. tauto.
    + rewrite (proj2 AP D). cbn [bind]. split; [split; discriminate|]. split; [split; [intros _; split; [discriminate|exact D]|reflexivity]|].
      split; [discriminate|]. discriminate.
  - split; [tauto|]. split; [split; [discriminate|tauto]|]. split; [discriminate|]. discriminate.
Qed.

(** *** C85: Verify answers exactly when the keys for that size have been made *)
Theorem C85_verify_answers_partial : forall l p n q, sizes_ok l -> 0 <= n ->
  (Verify (history l) p n q = Panic <-> last_setup l MultiSwap n = None) /\
  ((exists b, Verify (history l) p n q = Ret b) <-> last_setup l MultiSwap n <> None).
Proof using pkey vkey proof g_setup g_verify.
  intros l p n q HL Hn. rewrite verify_eq by assumption. destruct (last_setup l MultiSwap n).
  - split; split; try discriminate. intros _. eexists. reflexivity.
  - split; split; try reflexivity; [intros [b H]; discriminate|]. intros H. now contradiction H.
Qed.

(** *** C86 *)
(** the contract exported from the keys on disk accepts what Verify accepts *)
Theorem C86_contract_partial : forall l size rs fs,
  OutputSmartContract pkey vkey g_setup (history l) size rs = Ret fs ->
  fs = history (l ++ [EContract size rs]) /\
  forall p q, Verify fs p size q = Ret (contract_accepts pkey vkey proof g_verify fs "contract_g16.sol" p (GenPublicWitness q)).
Proof using pkey vkey proof g_setup g_verify.
  intros l size rs fs H.
  assert (E : fs = history (l ++ [EContract size rs])).
  { unfold KeysModel.history. rewrite fold_left_app. cbn [fold_left do_event]. fold (history l). now rewrite H. }
  split; [exact E|]. intros p q.
  unfold OutputSmartContract in H. set (q0 := if negb _ then _ else _) in H. destruct q0 as [fs0| |]; cbn [bind] in H; try discriminate.
  unfold read_vk in H. destruct (fs0 _) as [[| |vk|]|] eqn:E0; try discriminate. injection H as H.
  assert (X : fs (file_name zkmultiswap_prefix size ".vk.save") = Some (FVK pkey vkey vk)).
  { rewrite <- H, write_neq; [exact E0|]. apply (other_name MultiSwap). split; discriminate. }
  unfold KeysModel.Verify, read_vk. rewrite X. unfold contract_accepts. rewrite <- H, write_eq. reflexivity.
Qed.
(** the contract exported by the second driver never accepts the proof it prints, whatever the inputs, unless
    the two setups drew the same randomness *)
Theorem C86_contract_wrong_key : ideal g_setup g_proof g_verify sat ->
  forall sha is_prime fuel l size setup m r1 r2 rp fs p input, sizes_ok l ->
  OutputSmartContract2 pkey vkey proof g_setup g_proof g_verify sat poseidon sha is_prime fuel (history l) size setup m r1 r2 rp = Ret (fs, Some (p, input)) ->
  r1 <> r2 -> forall v, contract_accepts pkey vkey proof g_verify fs "Notuscontract_g16.sol" p v = false.
Proof using pkey vkey proof g_setup g_proof g_verify sat poseidon.
  clear mulmod. intros (GC & GS & GB) sha is_prime fuel l size setup m r1 r2 rp fs p input HL H NE v.
  unfold OutputSmartContract2 in H. destruct (SetupZkMultiswap pkey vkey g_setup (history l) MultiSwap size r1) as [fs1| |] eqn:E1; cbn [bind] in H; try discriminate.
  destruct (g_setup (MultiSwap, size) r2) as [pk2 vk2] eqn:E2. set (fs2 := write _ _ (write _ _ (write _ _ fs1 _ _) _ _) _ _) in H.
  destruct (GenTestSet _ _ _ _ _ _ _) as [u| |]; cbn [bind] in H; try discriminate.
  destruct (Prove fs2 u rp) as [[p'|]| |] eqn:EP; cbn [bind] in H; try discriminate.
  destruct (Verify fs2 p' size (PublicPart u)) as [b| |] eqn:EV; cbn [bind] in H; try discriminate.
  destruct b; cbn [negb] in H; [|discriminate]. injection H as <- <- _.
  unfold contract_accepts. replace (fs2 "Notuscontract_g16.sol"%string) with (Some (FSol pkey vkey vk2)) by (unfold fs2; now rewrite write_eq).
  destruct (g_verify p' vk2 v) eqn:EG; [exfalso|reflexivity].
  assert (Hz : 0 < size). { unfold SetupZkMultiswap in E1. destruct (Z.leb_spec size 0); [discriminate|assumption]. }
  assert (Efs : fs2 = history (l ++ [EContract2 size setup m r1 r2 rp])).
  { unfold KeysModel.history. rewrite fold_left_app. cbn [fold_left do_event]. fold (history l). now rewrite E1, E2. }
  assert (HL' : sizes_ok (l ++ [EContract2 size setup m r1 r2 rp])) by (apply Forall_app; split; [assumption|repeat constructor; cbn; lia]).
  rewrite Efs, prove_eq in EP by assumption. rewrite Efs, verify_eq in EV by (assumption || lia).
  destruct (last_setup _ MultiSwap (Z.of_nat (length (u_ID u)))) as [s|] eqn:ES; [|discriminate].
  destruct (AssignCircuit u) as [c| |]; cbn [bind] in EP; try discriminate. cbv zeta in EP. unfold ProveRoll in EP.
  destruct (fits _ _) eqn:F; cbn [negb] in EP; [|discriminate]. rewrite orb_true_r in EP. injection EP as <-.
  assert (ES1 : last_setup (l ++ [EContract2 size setup m r1 r2 rp]) MultiSwap size = Some r1).
  { unfold last_setup. rewrite fold_left_app. cbn [fold_left next_setup]. rewrite Z.eqb_refl. cbn [family_eqb andb compiles orb]. destruct (Z.ltb_spec 0 size); [reflexivity|lia]. }
  rewrite ES1 in EV. injection EV as EV. apply GB in EV; [|assumption]. destruct EV as ([= EV] & E3 & _).
  replace vk2 with (snd (g_setup (MultiSwap, size) r2)) in EG by now rewrite E2. apply GB in EG; [|assumption]. destruct EG as (_ & E4 & _). congruence.
Qed.

(** *** C87: what an accepted proof means, whoever made it *)
Theorem C87_accepted_swap : ideal g_setup g_proof g_verify sat -> sat_ok poseidon mulmod sat ->
  mulmod_sound mulmod -> mulmod_complete mulmod -> (forall l, in_fr (poseidon l)) ->
  forall l p n q, sizes_ok l -> 0 <= n -> Verify (history l) p n q = Ret true ->
  exists c, Z.of_nat (users c) = n /\ in_field c /\ integrity c /\
    Forall2 (fun x y => x = y mod fr_modulus) [ChallengeL1 c; ChallengeL2 c; RemainderR1 c; RemainderR2 c; CurrentEpochNum c; DeltaModL1 c; DeltaModL2 c] (components q) /\
    RemainderR1 c = (prod_upto (users c) (fun i => (old_leaf poseidon c i + DeltaModL1 c) mod fr_modulus) * randomizers poseidon (Randomizer1 c)) mod ChallengeL1 c /\
    RemainderR2 c = (prod_upto (users c) (fun i => (new_leaf poseidon c i + DeltaModL2 c) mod fr_modulus) * randomizers poseidon (Randomizer2 c)) mod ChallengeL2 c.
Proof.
  intros (GC & GS & GB) (SM & _) MS MC HP l p n q HL Hn H. rewrite verify_eq in H by assumption.
  destruct (last_setup l MultiSwap n) as [s|]; [|discriminate]. injection H as H. apply GS in H. destruct H as (a & F & S & P).
  destruct a as [c|c]; [|cbn in F; discriminate]. apply SM in S; [|exact F]. exists (field_circuit c).
  assert (HF : in_field (field_circuit c)).
  { assert (X : forall z, in_fr (fld z)) by (intros; apply Z.mod_pos_bound; reflexivity).
    assert (Y : forall l, Forall in_fr (map fld l)) by (intros; apply Forall_forall; intros z Hz; apply in_map_iff in Hz; destruct Hz as (y & <- & _); apply X).
    unfold in_field. cbn [field_circuit ChallengeL1 ChallengeL2 RemainderR1 RemainderR2 CurrentEpochNum DeltaModL1 DeltaModL2 Randomizer1 Randomizer2
      OriginalSum UpdatedSum UserID OriginalBalances OriginalHashes OriginalUpdEpoch UpdatedBalances]. split; [repeat constructor; apply X|]. auto. }
  pose proof (proj1 (circuit_meaning _ _ _ MS MC HP HF) S) as (J & E1 & E2 & _).
  split. { unfold users. cbn [field_circuit UserID]. rewrite map_length. cbn -[Z.of_nat] in F. apply andb_prop in F. now apply Z.eqb_eq. }
  split; [exact HF|]. split; [exact J|]. split; [|auto].
  cbn [public_of] in P. unfold GenPublicWitness in P. rewrite !public_vector_eq in P. cbn [map] in P. injection P as P1 P2 P3 P4 P5 P6 P7.
  unfold components. repeat (apply Forall2_cons; [first [exact P1|exact P2|exact P3|exact P4|exact P5|exact P6|exact P7]|]). constructor.
Qed.
End Main.

(** *** Examples and refutations, with the ideal scheme and the exact MulModP *)
Notation toy_history := (history (ccs * nat) (ccs * nat) toy_setup).
Notation toy_Prove := (Prove (ccs * nat) (ccs * nat) ((ccs * nat) * assignment * nat) toy_proof (toy_sat toy_pos)).
Notation toy_Verify := (Verify (ccs * nat) (ccs * nat) ((ccs * nat) * assignment * nat) (toy_verify (toy_sat toy_pos))).
(** the set of the three users of toy_circuit, and the same with a wrong balance *)
Definition swap_set (ub : list Z) : UpdateSet32 :=
  {| u_L1 := ChallengeL1 toy_circuit; u_L2 := ChallengeL2 toy_circuit; u_R1 := RemainderR1 toy_circuit; u_R2 := RemainderR2 toy_circuit;
     u_Epoch := CurrentEpochNum toy_circuit; u_D1 := DeltaModL1 toy_circuit; u_D2 := DeltaModL2 toy_circuit; u_Rand1 := Randomizer1 toy_circuit;
     u_Rand2 := Randomizer2 toy_circuit; u_OSum := OriginalSum toy_circuit; u_USum := UpdatedSum toy_circuit; u_ID := UserID toy_circuit;
     u_OB := OriginalBalances toy_circuit; u_OH := OriginalHashes toy_circuit; u_OE := OriginalUpdEpoch toy_circuit; u_UB := ub |}.
Lemma swap_satisfied : satisfied toy_pos exact_mulmod (field_circuit (copied (swap_set (UpdatedBalances toy_circuit)))).
Proof. change (copied (swap_set (UpdatedBalances toy_circuit))) with toy_circuit. rewrite (field_circuit_id _ toy_in_field). apply C52_case. Qed.
Definition busy : list event := [ESetup MerkleSwap 3 1; ESetup MultiSwap 30 2; ESetup MultiSwap 3 5; ETest MultiSwap 3 {| sN := 35; sG := 2; sH := 3 |} 3 6 7].
Example C83_case : let u := swap_set (UpdatedBalances toy_circuit) in
  sizes_ok busy /\ well_formed u /\ last_setup busy MultiSwap 3 = Some 5%nat /\
  exists p, toy_Prove (toy_history busy) u 9%nat = Ret (Some p) /\
    toy_Verify (toy_history (busy ++ [ESetup MultiSwap 4 8; EContract 3 9])) p 3 (PublicPart u) = Ret true /\
    toy_Verify (toy_history (busy ++ [ESetup MultiSwap 3 8])) p 3 (PublicPart u) = Ret false.
Proof.
  cbv zeta. set (u := swap_set (UpdatedBalances toy_circuit)).
  assert (SB : sizes_ok busy) by (repeat constructor; cbn; lia). assert (W : well_formed u) by (split; [cbn; lia|repeat split]).
  split; [exact SB|]. split; [exact W|]. split; [reflexivity|].
  destruct (C83_prove_verify _ _ _ _ _ _ _ _ _ (toy_ideal (toy_sat toy_pos)) (toy_sat_ok toy_pos) busy u 9 5 SB W eq_refl) as (p & HP & HV).
  exists p. split; [exact HP|]. split.
  - apply HV; [repeat constructor; cbn; lia|lia|]. split; [reflexivity|]. split; [repeat constructor|]. split; [exact swap_satisfied|reflexivity].
  - destruct (proj2 (C85_verify_answers_partial _ _ _ toy_setup (toy_verify (toy_sat toy_pos)) (busy ++ [ESetup MultiSwap 3 8]) p 3 (PublicPart u)
      ltac:(repeat constructor; cbn; lia) ltac:(lia))) as [_ A]. destruct (A ltac:(discriminate)) as [b Hb]. rewrite Hb. f_equal. destruct b; [|reflexivity].
    apply HV in Hb; [|repeat constructor; cbn; lia|lia]. destruct Hb as (_ & _ & _ & Hb). discriminate.
Qed.
Example C83_tests_case : exists u, GenTestSet toy_pos (one_byte "007"%char) seven 5 (Z.to_nat 4) {| sN := 35; sG := 2; sH := 3 |} 3 = Ret u /\ no_wrap toy_pos (copied u).
Proof.
  eexists. split; [vm_compute; reflexivity|]. intros i Hi. cbn in Hi. destruct i as [|[|[|[|i]]]]; [| | | |lia]; split; vm_compute; reflexivity.
Qed.

(** a set whose balances do not match its remainders is proved without complaint *)
Theorem C84_prove_errors_refuted : exists (sat : ccs -> assignment -> bool) poseidon mulmod l u r p,
  mulmod_sound mulmod /\ mulmod_complete mulmod /\ (forall l, in_fr (poseidon l)) /\ sat_ok poseidon mulmod sat /\
  ideal toy_setup toy_proof (toy_verify sat) sat /\ sizes_ok l /\ well_formed u /\
  ~ satisfied poseidon mulmod (field_circuit (copied u)) /\
  Prove (ccs * nat) (ccs * nat) ((ccs * nat) * assignment * nat) toy_proof sat (toy_history l) u r = Ret (Some p).
Proof.
  set (u := swap_set [10; 20; 2 ^ 32]). assert (SB : sizes_ok busy) by (repeat constructor; cbn; lia). assert (W : well_formed u) by (split; [cbn; lia|repeat split]).
  destruct (C83_prove_verify _ _ _ _ _ _ _ _ _ (toy_ideal (toy_sat toy_pos)) (toy_sat_ok toy_pos) busy u 9 5 SB W eq_refl) as (p & HP & HV).
  exists (toy_sat toy_pos), toy_pos, exact_mulmod, busy, u, 9%nat, p.
  split; [exact exact_sound|]. split; [exact exact_complete|]. split; [exact toy_pos_fr|]. split; [apply toy_sat_ok|]. split; [apply toy_ideal|].
  split; [exact SB|]. split; [exact W|]. split; [|exact HP].
  intros S. assert (F : in_field (field_circuit (copied u))) by in_field_compute.
  pose proof (C52_integrity _ _ _ F S) as (_ & _ & _ & _ & R & _). specialize (R 2%nat ltac:(cbn; lia)). destruct R as (_ & [_ R] & _). vm_compute in R. discriminate.
Qed.
Example C84_partial_case : last_setup busy MultiSwap 4 = None /\ last_setup busy MultiSwap 3 <> None.
Proof. split; [reflexivity|discriminate]. Qed.

(** no setup for the size: a panic instead of a verdict *)
Theorem C85_verify_answers_refuted : exists (sat : ccs -> assignment -> bool) l p n q,
  ideal toy_setup toy_proof (toy_verify sat) sat /\ sizes_ok l /\ 2 <= n /\
  Verify (ccs * nat) (ccs * nat) ((ccs * nat) * assignment * nat) (toy_verify sat) (toy_history l) p n q = Panic.
Proof.
  exists (toy_sat toy_pos), busy, (((MultiSwap, 3), 5%nat), AMulti toy_circuit, 0%nat), 4, (PublicPart (swap_set [])).
  split; [apply toy_ideal|]. assert (SB : sizes_ok busy) by (repeat constructor; cbn; lia). split; [exact SB|]. split; [lia|].
  apply C85_verify_answers_partial; [exact SB|lia|reflexivity].
Qed.

(** the second driver: verification passes, yet the exported contract rejects the printed proof, with the
    printed inputs and with all others *)
Theorem C86_contract_refuted : exists (sat : ccs -> assignment -> bool) poseidon mulmod sha is_prime fuel size setup m r1 r2 rp fs p input,
  mulmod_sound mulmod /\ mulmod_complete mulmod /\ (forall l, in_fr (poseidon l)) /\ sat_ok poseidon mulmod sat /\
  ideal toy_setup toy_proof (toy_verify sat) sat /\
  OutputSmartContract2 (ccs * nat) (ccs * nat) ((ccs * nat) * assignment * nat) toy_setup toy_proof (toy_verify sat) sat poseidon sha is_prime fuel
    (toy_history []) size setup m r1 r2 rp = Ret (fs, Some (p, input)) /\
  contract_accepts (ccs * nat) (ccs * nat) ((ccs * nat) * assignment * nat) (toy_verify sat) fs "Notuscontract_g16.sol" p input = false.
Proof.
  destruct C83_tests_case as (u & HG & NW). set (st := {| sN := 35; sG := 2; sH := 3 |}) in *.
  set (l := [EContract2 4 st 3 1 2 3]). assert (SL : sizes_ok l) by (repeat constructor; cbn; lia).
  destruct (C55_honest_partial toy_pos exact_mulmod (one_byte "007"%char) seven 5 (Z.to_nat 4) st 3 exact_sound exact_complete toy_pos_fr
    ltac:(intros x Hx; apply Z.eqb_eq in Hx; lia) ltac:(lia) ltac:(lia)) as [_ H].
  destruct (H u HG) as (c & A & U & _ & _ & _ & S). clear H.
  assert (W : well_formed u).
  { apply C51_is_valid. destruct (IsValid u) eqn:E; [reflexivity|]. unfold AssignCircuit in A. rewrite E in A. discriminate. }
  rewrite (proj2 (proj2 (C51_is_valid u)) W) in A. injection A as <-. specialize (S NW). unfold users in U. change (UserID (copied u)) with (u_ID u) in U.
  pose proof (C83_prove_verify _ _ _ _ _ _ _ _ _ (toy_ideal (toy_sat toy_pos)) (toy_sat_ok toy_pos) l u 3 1 SL W) as PV. cbv zeta in PV.
  rewrite U in PV. change (Z.of_nat (Z.to_nat 4)) with 4 in PV. destruct (PV eq_refl) as (p & HP & HV). clear PV.
  specialize (HV [] 4 (PublicPart u) ltac:(constructor) ltac:(lia)). rewrite app_nil_r in HV.
  assert (V : toy_Verify (toy_history l) p 4 (PublicPart u) = Ret true).
  { apply HV. split; [reflexivity|]. split; [repeat constructor|]. split; [exact S|reflexivity]. }
  exists (toy_sat toy_pos), toy_pos, exact_mulmod, (one_byte "007"%char), seven, 5%nat, 4, st, 3, 1%nat, 2%nat, 3%nat, (toy_history l), p, (contract_input (PublicPart u)).
  split; [exact exact_sound|]. split; [exact exact_complete|]. split; [exact toy_pos_fr|]. split; [apply toy_sat_ok|]. split; [apply toy_ideal|].
  assert (R : OutputSmartContract2 (ccs * nat) (ccs * nat) ((ccs * nat) * assignment * nat) toy_setup toy_proof (toy_verify (toy_sat toy_pos)) (toy_sat toy_pos) toy_pos
    (one_byte "007"%char) seven 5 (toy_history []) 4 st 3 1 2 3 = Ret (toy_history l, Some (p, contract_input (PublicPart u)))).
  { unfold OutputSmartContract2. change (SetupZkMultiswap (ccs * nat) (ccs * nat) toy_setup (toy_history []) MultiSwap 4 1) with
      (Ret (dump (ccs * nat) (ccs * nat) toy_setup (toy_history []) (MultiSwap, 4) 1)). cbn [bind].
    change (toy_setup (MultiSwap, 4) 2) with ((MultiSwap, 4, 2%nat), (MultiSwap, 4, 2%nat)). cbv iota beta zeta.
    match goal with |- context [GenTestSet] => idtac end. rewrite HG. cbn [bind].
    match goal with |- context [toy_Prove ?f u 3%nat] => change f with (toy_history l) end. rewrite HP. cbn [bind]. 
    match goal with |- context [toy_Verify ?f p 4 _] => change f with (toy_history l) end. rewrite V. reflexivity. }
  split; [exact R|]. exact (C86_contract_wrong_key _ _ _ _ _ _ _ _ (toy_ideal (toy_sat toy_pos)) _ _ _ [] _ _ _ _ _ _ _ _ _ ltac:(constructor) R ltac:(discriminate) _).
Qed.
Example C86_partial_case : exists fs, OutputSmartContract (ccs * nat) (ccs * nat) toy_setup (toy_history busy) 3 4 = Ret fs /\ fs "contract_g16.sol"%string = Some (FSol _ _ (MultiSwap, 3, 5%nat)).
Proof. eexists. split; [vm_compute; reflexivity|vm_compute; reflexivity]. Qed.
Example C87_case : let u := swap_set (UpdatedBalances toy_circuit) in exists p, toy_Verify (toy_history busy) p 3 (PublicPart u) = Ret true.
Proof.
  cbv zeta. set (u := swap_set (UpdatedBalances toy_circuit)).
  assert (SB : sizes_ok busy) by (repeat constructor; cbn; lia). assert (W : well_formed u) by (split; [cbn; lia|repeat split]).
  destruct (C83_prove_verify _ _ _ _ _ _ _ _ _ (toy_ideal (toy_sat toy_pos)) (toy_sat_ok toy_pos) busy u 9 5 SB W eq_refl) as (p & HP & HV).
  exists p. specialize (HV [] 3 (PublicPart u) ltac:(constructor) ltac:(lia)). rewrite app_nil_r in HV. apply HV.
  split; [reflexivity|]. split; [repeat constructor|]. split; [exact swap_satisfied|reflexivity].
Qed.

(** The circuit that is compiled for a size has the variables of every assignment of that size, name by name, and of no
    other size: [fits] is what comparing the two declarations gives. *)
Definition layout (c : Circuit) : list (string * visibility * nat) := map (fun f => (fst f, length (snd f))) (circuit_fields c).
Theorem C83_layout :
  (forall c size, fits (MultiSwap, Z.of_nat size) (AMulti c) = true <-> layout c = layout (InitCircuitWithSize size)) /\
  (forall u c, AssignCircuit u = Ret c -> layout c = layout (InitCircuitWithSize (length (u_ID u)))) /\
  (forall poseidon size size', fits (MerkleSwap, Z.of_nat size) (AMerkle (MerkleAssign poseidon size')) = true <->
     length (TestInputs (MerkleAssign poseidon size')) = length (TestInputs (MerkleInit size)) /\
     length (TestOutputs (MerkleAssign poseidon size')) = length (TestOutputs (MerkleInit size))).
Proof.
  assert (F : forall c size, fits (MultiSwap, Z.of_nat size) (AMulti c) = true <-> layout c = layout (InitCircuitWithSize size)).
  { intros c size. unfold fits, layout. cbn [fst snd family_eqb andb forallb circuit_fields map length InitCircuitWithSize UserID OriginalBalances OriginalHashes OriginalUpdEpoch UpdatedBalances].
    rewrite map_length, seq_length, !repeat_length, !andb_true_iff, !Z.eqb_eq. split.
    - intros (H1 & H2 & H3 & H4 & H5 & _). repeat f_equal; lia.
    - intros E. injection E as E1 E2 E3 E4 E5. repeat split; congruence. }
  split; [exact F|]. split.
  - intros u c A. assert (W : well_formed u) by (apply C51_is_valid; destruct (IsValid u) eqn:E; [reflexivity|]; unfold AssignCircuit in A; rewrite E in A; discriminate A).
    rewrite (proj2 (proj2 (C51_is_valid u)) W) in A. injection A as <-. apply F. destruct W as (_ & E1 & E2 & E3 & E4).
    cbn [fits fst snd family_eqb andb forallb copied UserID OriginalBalances OriginalHashes OriginalUpdEpoch UpdatedBalances]. rewrite !andb_true_iff, !Z.eqb_eq. repeat split; f_equal; congruence.
  - intros poseidon size size'. cbn [fits fst snd family_eqb andb forallb]. rewrite !andb_true_iff, !Z.eqb_eq. cbn [MerkleAssign MerkleInit TestInputs TestOutputs].
    rewrite !repeat_length, !map_length, seq_length. split; [intros (H & _); lia|intros [H _]; subst; repeat split].
Qed.
Example C83_layout_case : layout (copied toy_set) = layout (InitCircuitWithSize 3) /\ layout (copied toy_set) <> layout (InitCircuitWithSize 2).
Proof. split; [reflexivity|discriminate]. Qed.

Print Assumptions C83_layout.
Print Assumptions C83_prove_verify. Print Assumptions C83_tests. Print Assumptions C84_prove_errors_partial. Print Assumptions C84_prove_errors_refuted.
Print Assumptions C85_verify_answers_partial. Print Assumptions C85_verify_answers_refuted. Print Assumptions C86_contract_partial.
Print Assumptions C86_contract_wrong_key. Print Assumptions C86_contract_refuted. Print Assumptions C87_accepted_swap.
