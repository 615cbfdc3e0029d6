(** Theorems for property C96: the deployed bytecode of the verifier contract does what the Solidity source says.
    The source is modelled in SolModel; [verify] below repeats it with the reasons for failures. *)
From Coq Require Import ZArith Bool Lia String List.
From Verif Require Import SolModel EvmModel EvmCode EvmSym EvmProofs Keccak.
Import ListNotations.
Open Scope Z_scope.

(** ** specification *)
(** Notuscontract_g16.sol: an answer, a failed require with its message, a failed call of a precompiled contract *)
Inductive verdict := Answer (b : bool) | Complaint (msg : string) | Crash.

Section Spec.
Variable ecAdd : G1Point -> G1Point -> option G1Point.
Variable ecMul : G1Point -> Z -> option G1Point.
Variable ecPairing : list (G1Point * G2Point) -> option bool.

Definition need (c : bool) (msg : string) (k : verdict) : verdict := if c then k else Complaint msg.
Definition result_of {A} (r : option A) (k : A -> verdict) : verdict := match r with Some a => k a | None => Crash end.
Fixpoint sum_inputs (ic : list G1Point) (input : list Z) (v : G1Point) (k : G1Point -> verdict) {struct input} : verdict :=
  match input, ic with
  | x :: input, p :: ic =>
      need (x <? SNARK_SCALAR_FIELD) "verifier-gte-snark-scalar-field"
        (result_of (ecMul p x) (fun q => result_of (ecAdd v q) (fun v => sum_inputs ic input v k)))
  | _, _ => k v
  end.
Definition verify (vk : VerifyingKey) (a : Z * Z) (b : (Z * Z) * (Z * Z)) (c : Z * Z) (input : list Z) : verdict :=
  let small x := x <? PRIME_Q in
  need (small (fst a)) "verifier-aX-gte-prime-q" (need (small (snd a)) "verifier-aY-gte-prime-q"
  (need (small (fst (fst b))) "verifier-bX0-gte-prime-q" (need (small (fst (snd b))) "verifier-bY0-gte-prime-q"
  (need (small (snd (fst b))) "verifier-bX1-gte-prime-q" (need (small (snd (snd b))) "verifier-bY1-gte-prime-q"
  (need (small (fst c)) "verifier-cX-gte-prime-q" (need (small (snd c)) "verifier-cY-gte-prime-q"
  (sum_inputs (tl (IC vk)) input (G1 0 0) (fun v => result_of (ecAdd v (hd (G1 0 0) (IC vk))) (fun v =>
   result_of (ecPairing [(negate (G1 (fst a) (snd a)), G2 (fst b) (snd b)); (alfa1 vk, beta2 vk); (v, gamma2 vk); (G1 (fst c) (snd c), delta2 vk)])
   Answer)))))))))).

(** the call data the contract takes: a selector, then words (two for a, four for b, two for c, seven inputs) *)
Definition selector : list Z := firstn 4 (keccak256 (bytes_of "verifyProof(uint256[2],uint256[2][2],uint256[2],uint256[7])")).
(** revert data of require: Error(string) *)
Definition error_data (msg : string) : list Z :=
  let m := bytes_of msg in
  firstn 4 (keccak256 (bytes_of "Error(string)")) ++ be_bytes 32 ++ be_bytes (Z.of_nat (List.length m)) ++ m ++ repeat 0 (32 - List.length m).
Definition contract (cd : list Z) (value : Z) : result :=
  if negb (value =? 0) then RRevert []
  else if (List.length cd <? 484)%nat then RRevert []
  else if negb (if list_eq_dec Z.eq_dec (firstn 4 cd) selector then true else false) then RRevert []
  else
    let w := word_at (skipn 4 cd) in
    match verify GnarkTest_vk (w 0%nat, w 1%nat) ((w 2%nat, w 3%nat), (w 4%nat, w 5%nat)) (w 6%nat, w 7%nat) (map w (seq 8 7)) with
    | Answer b => RReturn (be_bytes (b2z b))
    | Complaint msg => RRevert (error_data msg)
    | Crash => RHalt
    end.

(** [verify] is the contract of SolModel *)
Lemma sum_inputs_spec : forall input all i v k, (List.length input + i + 1 <= List.length all)%nat ->
  match sum_inputs (skipn (i + 1) all) input v k with Answer b => Some b | _ => None end =
  obind (input_loop ecAdd ecMul all i input v) (fun v => match k v with Answer b => Some b | _ => None end).
Proof.
  induction input as [|x input IH]; intros all i v k H; [reflexivity|]. cbn [List.length] in H.
  assert (S1 : exists p, nth_error all (i + 1) = Some p /\ skipn (i + 1) all = p :: skipn (i + 1 + 1) all).
  { replace (i + 1 + 1)%nat with (S (i + 1)) by lia. set (j := (i + 1)%nat) in *. assert (Hj : (j < List.length all)%nat) by (unfold j; lia).
    clearbody j. clear -Hj. revert j Hj. induction all as [|y all IHa]; intros j Hj; [cbn in Hj; lia|].
    destruct j as [|j]; [exists y; split; reflexivity|]. destruct (IHa j ltac:(cbn in Hj; lia)) as (p & E1 & E2). exists p. split; [exact E1|exact E2]. }
  destruct S1 as (p & E1 & E2). rewrite E2. cbn [sum_inputs input_loop]. unfold need, require.
  destruct (x <? SNARK_SCALAR_FIELD); [|reflexivity]. cbn [obind]. rewrite E1. cbn [obind]. unfold scalar_mul, plus, result_of.
  destruct (ecMul p x) as [q|]; [|reflexivity]. cbn [obind]. destruct (ecAdd v q) as [v'|]; [|reflexivity]. cbn [obind].
  apply IH. lia.
Qed.
End Spec.

Theorem C96_same_source : forall ecAdd ecMul ecPairing vk a b c input, (List.length input < List.length (IC vk))%nat ->
  match verify ecAdd ecMul ecPairing vk a b c input with Answer b => Some b | _ => None end = verifyProof ecAdd ecMul ecPairing vk a b c input.
Proof.
  intros ecAdd ecMul ecPairing vk a b c input H. unfold verify, verifyProof, need, require. cbn [X1 Y1 X2 Y2].
  repeat (match goal with |- context [?x <? PRIME_Q] => destruct (x <? PRIME_Q) end; [cbn [obind]|reflexivity]).
  change (tl (IC vk)) with (skipn (0 + 1) (IC vk)).
  rewrite sum_inputs_spec by lia. destruct (input_loop ecAdd ecMul (IC vk) 0 input (G1 0 0)) as [v|]; [|reflexivity]. cbn [obind].
  destruct (IC vk) as [|p ic]; [cbn in H; lia|]. cbn [hd nth_error obind]. unfold plus, pairing, result_of.
  destruct (ecAdd v p) as [v'|]; [|reflexivity]. cbn [obind].
  destruct (ecPairing _) as [r|]; reflexivity.
Qed.

(** ** the symbolic run *)
Definition runtime : list Z := Eval vm_compute in skipn 32 VerifierBin.
Definition runtime_prog : prog := Eval vm_compute in decode runtime.
Definition the_tree : tree := Eval vm_compute in srun runtime_prog (2 ^ 14) sstart.

Lemma the_tree_run : srun runtime_prog (2 ^ 14) sstart = the_tree.
Proof. vm_compute. reflexivity. Qed.
Lemma runtime_prog_eq : decode runtime = runtime_prog.
Proof. vm_compute. reflexivity. Qed.

(** ** call data *)
Lemma be_app2 : forall l1 l2, be (l1 ++ l2) = be l1 * 256 ^ Z.of_nat (List.length l2) + be l2.
Proof.
  intros l1 l2. induction l2 as [|x l2 IH] using rev_ind; [rewrite app_nil_r; change (be []) with 0; cbn; ring|].
  rewrite app_assoc, !be_app, IH, app_length. cbn [List.length]. replace (Z.of_nat (List.length l2 + 1)) with (Z.of_nat (List.length l2) + 1) by lia.
  rewrite Z.pow_add_r by lia. change (256 ^ 1) with 256. ring.
Qed.
Lemma nth_skipn' : forall (l : list Z) n i, nth i (skipn n l) 0 = nth (n + i) l 0.
Proof. induction l as [|x l IH]; intros [|n] i; cbn [skipn]; try reflexivity; [now destruct i|apply IH]. Qed.
Lemma cdword_arg : forall cd i, cdword cd (4 + 32 * Z.of_nat i) = word_at (skipn 4 cd) i.
Proof.
  intros cd i. unfold cdword, cdcopy, word_at. f_equal. change (Z.to_nat 32) with 32%nat. apply map_ext. intros j. unfold cdbyte.
  rewrite nth_skipn'. f_equal. lia.
Qed.
Lemma cdword_selector : forall cd, Forall (fun b => 0 <= b < 256) cd -> (4 <= List.length cd)%nat ->
  (cdword cd 0 / 2 ^ 224 = 3365201751 <-> firstn 4 cd = selector).
Proof.
  intros cd Hb Hl. change selector with [200; 148; 231; 87].
  destruct cd as [|b0 [|b1 [|b2 [|b3 cd]]]]; try (cbn in Hl; lia). inversion_clear Hb as [|? ? B0 Hb1]. inversion_clear Hb1 as [|? ? B1 Hb2].
  inversion_clear Hb2 as [|? ? B2 Hb3]. inversion_clear Hb3 as [|? ? B3 Hb4].
  set (c := b0 :: b1 :: b2 :: b3 :: cd).
  assert (E : cdword c 0 = be [b0; b1; b2; b3] * 256 ^ Z.of_nat 28 + be (map (fun i => cdbyte c (0 + Z.of_nat i)) (seq 4 28))).
  { unfold cdword, cdcopy. change (seq 0 (Z.to_nat 32)) with (seq 0 4 ++ seq 4 28). rewrite map_app, be_app2.
    rewrite map_length, seq_length. reflexivity. }
  assert (R : 0 <= be (map (fun i => cdbyte c (0 + Z.of_nat i)) (seq 4 28)) < 256 ^ Z.of_nat 28).
  { pose proof (be_range (map (fun i => cdbyte c (0 + Z.of_nat i)) (seq 4 28))) as R. rewrite map_length, seq_length in R. apply R.
    apply Forall_map, Forall_forall. intros x _. apply cdbyte_range. unfold c. now repeat (constructor; [assumption|]). }
  rewrite E. change (256 ^ Z.of_nat 28) with (2 ^ 224) in *.
  rewrite Z.div_add_l by (apply Z.pow_nonzero; lia). rewrite (Z.div_small _ _ R), Z.add_0_r.
  change (be [b0; b1; b2; b3]) with ((((0 * 256 + b0) * 256 + b1) * 256 + b2) * 256 + b3). cbn [firstn]. clear -B0 B1 B2 B3.
  split; [|intros [= -> -> -> ->]; reflexivity]. intros H.
  assert (b0 = 200 /\ b1 = 148 /\ b2 = 231 /\ b3 = 87) by lia. destruct H0 as (-> & -> & -> & ->). reflexivity.
Qed.
(** tests that come out true once the call data is long enough, pays nothing and names verifyProof *)
Fixpoint same (a b : exp) : bool :=
  match a, b with
  | EC x, EC y => x =? y
  | ECD x, ECD y => x =? y
  | EB ADD a1 a2, EB ADD b1 b2 => same a1 b1 && same a2 b2
  | EB SUB a1 a2, EB SUB b1 b2 => same a1 b1 && same a2 b2
  | ESize, ESize => true
  | _, _ => false
  end.
Definition is_end (e : exp) : bool := same e (EB ADD (EC 4) (EB SUB ESize (EC 4))).
Definition sure (e : exp) : bool :=
  match e with
  | EU ISZERO EValue => true
  | EU ISZERO (EB SLT (EB SUB e (EC 4)) (EC 480)) => is_end e
  | EU ISZERO (EB GT (EC k) e) => is_end e && (0 <=? k) && (k <=? 484)
  | EB SLT (EC k) e => is_end e && (0 <=? k) && (k <? 484)
  | EB EQ (ECD a) (ECD b) => a =? b
  | EB EQ (EC s) (EB SHR (EC 224) (ECD 0)) => s =? 3365201751
  | _ => false
  end.


(** the tree without the tests above; constant bytes are reduced to [(EC b, 31)] *)
Definition plain (p : exp * Z) : exp * Z := match fst p with EC z => (EC (byte_of (z mod W) (snd p)), 31) | _ => p end.
Fixpoint prune (t : tree) : tree :=
  match t with
  | TIf e t f => if sure e then prune t else match e with EB LT ESize (EC 4) => prune f | _ => TIf e (prune t) (prune f) end
  | TCall a ws k ok fail => TCall a ws k (prune ok) (prune fail)
  | TRev d => TRev (map plain d)
  | t => t
  end.
(** ** the tree of the specification *)
Definition bytes_exp (l : list Z) : list (exp * Z) := map (fun b => (EC b, 31)) l.
Definition complain (msg : string) : tree := TRev (bytes_exp (error_data msg)).
Definition check (a : Z) (bound : Z) (msg : string) (k : tree) : tree := TIf (EB LT (ECD a) (EC bound)) k (complain msg).
Fixpoint sum_tree (ic : list G1Point) (n : nat) (a : Z) (vx vy : exp) (k : nat) (cont : exp -> exp -> nat -> tree) {struct n} : tree :=
  match n, ic with
  | S n, p :: ic =>
      check a SNARK_SCALAR_FIELD "verifier-gte-snark-scalar-field"
        (TCall 7 [EC (X1 p); EC (Y1 p); ECD a] k
          (TCall 6 [vx; vy; EV k; EV (S k)] (k + 2) (sum_tree ic n (a + 32) (EV (k + 2)) (EV (S (k + 2))) (k + 4) cont) THalt) THalt)
  | _, _ => cont vx vy k
  end.
Definition g1_exp (p : G1Point) : list exp := [EC (X1 p); EC (Y1 p)].
Definition g2_exp (p : G2Point) : list exp := [EC (fst (X2 p)); EC (snd (X2 p)); EC (fst (Y2 p)); EC (snd (Y2 p))].
Definition answer (k : nat) : tree :=
  TRet (map (fun i => (EU ISZERO (EU ISZERO (EU ISZERO (EB EQ (EV k) (EC 0)))), Z.of_nat i)) (seq 0 32)).
Definition pair_tree (vk : VerifyingKey) (ax ay vx vy : exp) (k : nat) : tree :=
  TCall 8 ([ax; ay; ECD 68; ECD 100; ECD 132; ECD 164] ++ g1_exp (alfa1 vk) ++ g2_exp (beta2 vk) ++ [vx; vy] ++ g2_exp (gamma2 vk) ++ [ECD 196; ECD 228] ++ g2_exp (delta2 vk))
    k (answer k) THalt.
Definition minus_y : exp := EB SUB (EC PRIME_Q) (EB MOD (ECD 36) (EC PRIME_Q)).
Definition overflow_panic : tree := TRev (bytes_exp (firstn 4 (keccak256 (bytes_of "Panic(uint256)")) ++ be_bytes 17)).
Definition neg_tree (vk : VerifyingKey) (vx vy : exp) (k : nat) : tree :=
  let minus := TIf (EU ISZERO (EB GT minus_y (EC PRIME_Q))) (pair_tree vk (ECD 4) minus_y vx vy k) overflow_panic in
  let zero := pair_tree vk (EC 0) (EC 0) vx vy k in
  let nonzero a := EU ISZERO (EB EQ (ECD a) (EC 0)) in
  TIf (nonzero 4) (TIf (nonzero 4) minus zero) (TIf (nonzero 36) minus zero).
Definition spec_tree (vk : VerifyingKey) : tree :=
  check 4 PRIME_Q "verifier-aX-gte-prime-q" (check 36 PRIME_Q "verifier-aY-gte-prime-q"
  (check 68 PRIME_Q "verifier-bX0-gte-prime-q" (check 132 PRIME_Q "verifier-bY0-gte-prime-q"
  (check 100 PRIME_Q "verifier-bX1-gte-prime-q" (check 164 PRIME_Q "verifier-bY1-gte-prime-q"
  (check 196 PRIME_Q "verifier-cX-gte-prime-q" (check 228 PRIME_Q "verifier-cY-gte-prime-q"
  (sum_tree (tl (IC vk)) 7 260 (EC 0) (EC 0) 0 (fun vx vy k =>
    TCall 6 ([vx; vy] ++ g1_exp (hd (G1 0 0) (IC vk))) k (neg_tree vk (EV k) (EV (S k)) (k + 2)) THalt))))))))).
Lemma pruned : prune the_tree = spec_tree GnarkTest_vk.
Proof. vm_compute. reflexivity. Qed.

(** ** evaluating the tree *)
Section Main.
Variable gas : nat -> Z.
Variable ecAdd : G1Point -> G1Point -> option G1Point.
Variable ecMul : G1Point -> Z -> option G1Point.
Variable ecPairing : list (G1Point * G2Point) -> option bool.
Variable cd : list Z.
Variable value : Z.
Hypothesis cd_bytes : Forall (fun b => 0 <= b < 256) cd.
Hypothesis cd_size : Z.of_nat (List.length cd) < 2 ^ 255.
Hypothesis value_word : 0 <= value < W.
Notation et := (eval_tree cd value gas ecAdd ecMul ecPairing).
Notation ev := (eval cd value gas).

Lemma et_if : forall vars e t f, et vars (TIf e t f) = if ev vars e =? 0 then et vars f else et vars t.
Proof. reflexivity. Qed.
Lemma et_yes : forall vars e t f, ev vars e <> 0 -> et vars (TIf e t f) = et vars t.
Proof. intros vars e t f H. rewrite et_if. now destruct (Z.eqb_spec (ev vars e) 0). Qed.
Lemma et_no : forall vars e t f, ev vars e = 0 -> et vars (TIf e t f) = et vars f.
Proof. intros vars e t f H. rewrite et_if. now destruct (Z.eqb_spec (ev vars e) 0). Qed.
Lemma et_mul : forall vars x y s k ok fail,
  et vars (TCall 7 [x; y; s] k ok fail) =
  match ecMul (G1 (ev vars x) (ev vars y)) (ev vars s) with Some p => et (extend vars k [X1 p; Y1 p]) ok | None => et vars fail end.
Proof. intros. cbn [eval_tree map pre_words]. now destruct (ecMul _ _). Qed.
Lemma et_add : forall vars x1 y1 x2 y2 k ok fail,
  et vars (TCall 6 [x1; y1; x2; y2] k ok fail) =
  match ecAdd (G1 (ev vars x1) (ev vars y1)) (G1 (ev vars x2) (ev vars y2)) with
  | Some p => et (extend vars k [X1 p; Y1 p]) ok | None => et vars fail end.
Proof. intros. cbn [eval_tree map pre_words]. now destruct (ecAdd _ _). Qed.
Lemma et_pairing : forall vars ws k ok fail, (4 <= List.length ws)%nat ->
  et vars (TCall 8 ws k ok fail) =
  match ecPairing (pairs (List.length (map (ev vars) ws)) (map (ev vars) ws)) with Some b => et (extend vars k [b2z b]) ok | None => et vars fail end.
Proof.
  intros vars ws k ok fail H. cbn [eval_tree pre_words]. destruct ws as [|a [|b [|c [|d ws]]]]; try (cbn in H; lia). cbn [map pre_words].
  now destruct (ecPairing _).
Qed.

(** facts about the size of the call data *)
Lemma size_expr : forall vars, 4 <= Z.of_nat (List.length cd) -> ev vars (EB ADD (EC 4) (EB SUB ESize (EC 4))) = Z.of_nat (List.length cd).
Proof.
  intros vars H. cbn [eval bin]. change (4 mod W) with 4. assert (2 ^ 255 < W) by reflexivity.
  rewrite (Z.mod_small (_ - 4)) by lia. rewrite Z.mod_small; lia.
Qed.
Lemma slt_small : forall a b, 0 <= a < 2 ^ 255 -> 0 <= b < 2 ^ 255 -> bin SLT a b = b2z (a <? b).
Proof. intros a b Ha Hb. cbn [bin]. unfold signed. destruct (Z.ltb_spec a (2 ^ 255)); [|lia]. destruct (Z.ltb_spec b (2 ^ 255)); [|lia]. reflexivity. Qed.
(** *** tests that come out one way once the call data is long enough, pays nothing and names verifyProof *)
Definition fits : Prop := value = 0 /\ 484 <= Z.of_nat (List.length cd) /\ firstn 4 cd = selector.
Lemma same_sound : forall vars a b, same a b = true -> ev vars a = ev vars b.
Proof.
  intros vars. induction a as [z|k|a| | |k|o a IH|o a1 IH1 a2 IH2]; intros b H; destruct b as [z'|k'|a'| | |k'|o' b'|o' b1 b2]; try discriminate;
    try (destruct o; discriminate); cbn [same] in H; try reflexivity.
  - apply Z.eqb_eq in H. now subst.
  - apply Z.eqb_eq in H. now subst.
  - destruct o, o'; try discriminate; apply andb_prop in H; destruct H as [H1 H2]; cbn [eval]; now rewrite (IH1 _ H1), (IH2 _ H2).
Qed.
Lemma is_end_sound : forall vars e, 4 <= Z.of_nat (List.length cd) -> is_end e = true -> ev vars e = Z.of_nat (List.length cd).
Proof. intros vars e H E. rewrite (same_sound vars _ _ E). now apply size_expr. Qed.
Lemma word_lt : forall a, 0 <= a < 2 ^ 255 -> a mod W = a.
Proof. intros a H. apply Z.mod_small. assert (2 ^ 255 < W) by reflexivity. lia. Qed.
Lemma sure_end_lt : forall vars k e, fits -> is_end e && (0 <=? k) && (k <? 484) = true -> ev vars (EB SLT (EC k) e) <> 0.
Proof.
  intros vars k e (_ & H & _) S1. apply andb_prop in S1. destruct S1 as [S1 S3]. apply andb_prop in S1. destruct S1 as [S1 S2].
  apply Z.leb_le in S2. apply Z.ltb_lt in S3. cbn [eval]. rewrite (is_end_sound vars e) by (lia || assumption). rewrite word_lt, slt_small by lia.
  destruct (Z.ltb_spec k (Z.of_nat (List.length cd))); [discriminate|lia].
Qed.
Lemma sure_end_gt : forall vars k e, fits -> is_end e && (0 <=? k) && (k <=? 484) = true -> ev vars (EU ISZERO (EB GT (EC k) e)) <> 0.
Proof.
  intros vars k e (_ & H & _) S1. apply andb_prop in S1. destruct S1 as [S1 S3]. apply andb_prop in S1. destruct S1 as [S1 S2].
  apply Z.leb_le in S2. apply Z.leb_le in S3. cbn [eval]. rewrite (is_end_sound vars e) by (lia || assumption). rewrite word_lt by lia.
  cbn [bin]. destruct (Z.ltb_spec (Z.of_nat (List.length cd)) k); [lia|discriminate].
Qed.
Lemma sure_size : forall vars e, fits -> is_end e = true -> ev vars (EU ISZERO (EB SLT (EB SUB e (EC 4)) (EC 480))) <> 0.
Proof.
  intros vars e (_ & H & _) S1. cbn [eval]. rewrite (is_end_sound vars e) by (lia || assumption). change (4 mod W) with 4. change (480 mod W) with 480.
  cbn [bin]. rewrite word_lt by lia. change (b2z (signed (Z.of_nat (List.length cd) - 4) <? signed 480)) with (bin SLT (Z.of_nat (List.length cd) - 4) 480).
  rewrite slt_small by lia. destruct (Z.ltb_spec (Z.of_nat (List.length cd) - 4) 480); [lia|discriminate].
Qed.
Lemma sure_sound : forall vars e, fits -> sure e = true -> ev vars e <> 0.
Proof.
  intros vars e F S1. pose proof F as (Hv & H & Hs).
  destruct e as [z|k|a| | |k|o a|o e1 e2]; try discriminate.
  - destruct o; try discriminate. destruct a as [z|k|a| | |k|o a|o e1 e2]; try discriminate.
    + cbn [eval un]. now rewrite Hv.
    + destruct o; try discriminate.
      * destruct e1 as [z|k|a| | |k|o a|o e1 e3]; try discriminate. now apply sure_end_gt.
      * destruct e1 as [z|k|a| | |k|o a|o e1 e3]; try discriminate. destruct o; try discriminate.
        destruct e3 as [z|k|a| | |k|o a|o e3 e4]; try discriminate. destruct (Z.eqb_spec z 4) as [->|N].
        2:{ exfalso. cbn [sure] in S1. destruct z as [|[p|[p|[p|p|]|]|]|p]; try discriminate. now apply N. }
        destruct e2 as [z|k|a| | |k|o a|o e2 e4]; try discriminate. destruct (Z.eqb_spec z 480) as [->|N].
        { now apply sure_size. }
        exfalso. cbn [sure] in S1. repeat (match type of S1 with context [match ?p with _ => _ end] => is_var p; destruct p end; try discriminate). now apply N.
  - destruct o; try discriminate.
    + destruct e1 as [z|k|a| | |k|o a|o e1 e3]; try discriminate. now apply sure_end_lt.
    + destruct e1 as [z|k|a| | |k|o a|o e1 e3]; try discriminate.
      * destruct e2 as [z2|k2|a2| | |k2|o2 a2|o2 e2 e4]; try discriminate. destruct o2; try discriminate.
        destruct e2 as [z3|k2|a2| | |k2|o2 a2|o2 e2 e5]; try discriminate.
        destruct e4 as [z4|k4|a4| | |k4|o4 a4|o4 e6 e7]; try (exfalso; cbn [sure] in S1; repeat (match type of S1 with context [match ?p with _ => _ end] => is_var p; destruct p end; try discriminate); fail).
        destruct (Z.eqb_spec z3 224) as [->|N].
        2:{ exfalso. cbn [sure] in S1. repeat (match type of S1 with context [match ?p with _ => _ end] => is_var p; destruct p end; try discriminate). now apply N. }
        destruct (Z.eqb_spec a4 0) as [->|N].
        2:{ exfalso. cbn [sure] in S1. destruct a4; try discriminate. now apply N. }
        apply Z.eqb_eq in S1. subst z. pose proof (proj2 (cdword_selector cd cd_bytes ltac:(lia)) Hs) as Sel.
        change (b2z (3365201751 =? cdword cd 0 / 2 ^ 224) <> 0). rewrite Sel. discriminate.
      * destruct e2 as [z2|k2|a2| | |k2|o2 a2|o2 e2 e4]; try discriminate. apply Z.eqb_eq in S1. subst a2. cbn [eval bin]. rewrite Z.eqb_refl. discriminate.
Qed.

Lemma plain_sound : forall vars p, byte_of (ev vars (fst (plain p))) (snd (plain p)) = byte_of (ev vars (fst p)) (snd p).
Proof.
  intros vars [e i]. unfold plain. cbn [fst snd]. destruct e as [z|k|a| | |k|o a|o e1 e2]; try reflexivity. cbn [fst snd eval].
  assert (R : 0 <= byte_of (z mod W) i < 256) by (apply Z.mod_pos_bound; lia). rewrite (Z.mod_small (byte_of _ _) W) by (assert (256 < W) by reflexivity; lia).
  unfold byte_of at 1. change (2 ^ (8 * (31 - 31))) with 1. rewrite Z.div_1_r. now apply Z.mod_small.
Qed.
Lemma prune_sound : forall t vars, fits -> et vars (prune t) = et vars t.
Proof.
  induction t as [d|d| | | |e t IHt f IHf|a ws k t IHt f IHf]; intros vars F; try reflexivity.
  - cbn [prune eval_tree]. f_equal. f_equal. unfold evald. rewrite map_map. apply map_ext. intros p. apply plain_sound.
  - cbn [prune]. destruct (sure e) eqn:S1.
    + rewrite et_yes by now apply sure_sound. now apply IHt.
    + assert (D : et vars (TIf e (prune t) (prune f)) = et vars (TIf e t f)) by (rewrite !et_if; now rewrite IHt, IHf).
      assert (S4 : et vars (prune f) = et vars (TIf (EB LT ESize (EC 4)) t f)).
      { rewrite IHf by assumption. symmetry. apply et_no. destruct F as (_ & H & _). change (b2z (Z.of_nat (List.length cd) <? 4) = 0).
        destruct (Z.ltb_spec (Z.of_nat (List.length cd)) 4); [lia|reflexivity]. }
      clear S1. destruct e as [z|k|a| | |k|o a|o e1 e2]; try exact D. destruct o; try exact D. destruct e1; try exact D.
      destruct e2 as [z|k|a| | |k|o a|o e1 e2]; try exact D. destruct z as [|p|p]; try exact D. repeat (destruct p as [p|p|]; try exact D). exact S4.
  - cbn [prune eval_tree]. destruct (pre_words _ _ _ _ _); [reflexivity|now apply IHf|now apply IHt].
Qed.

Definition of_verdict (v : verdict) : result :=
  match v with Answer b => RReturn (be_bytes (b2z b)) | Complaint msg => RRevert (error_data msg) | Crash => RHalt end.
Lemma byte31 : forall b, 0 <= b < 256 -> byte_of (b mod W) 31 = b.
Proof.
  intros b R. rewrite (Z.mod_small b W) by (assert (256 < W) by reflexivity; lia). unfold byte_of. change (2 ^ (8 * (31 - 31))) with 1.
  rewrite Z.div_1_r. now apply Z.mod_small.
Qed.
Lemma bytes_exp_eval : forall vars l, Forall (fun b => 0 <= b < 256) l -> evald cd value gas vars (bytes_exp l) = l.
Proof.
  intros vars l H. unfold evald, bytes_exp. rewrite map_map. induction H as [|b l Hb H IH]; [reflexivity|]. cbn [map]. rewrite IH. cbn [fst snd eval]. now rewrite byte31.
Qed.
Definition ok_msg (msg : string) : Prop := Forall (fun b => 0 <= b < 256) (error_data msg).
Lemma et_check : forall vars a p msg k (b : bool) v, 0 <= p < W -> ok_msg msg -> cdword cd a <? p = b ->
  (b = true -> et vars k = Some (of_verdict v)) -> et vars (check a p msg k) = Some (of_verdict (need b msg v)).
Proof.
  intros vars a p msg k b v Hp Hm E Hk. unfold check. rewrite et_if. cbn [eval bin]. rewrite (Z.mod_small p) by assumption. rewrite E. unfold need.
  destruct b; cbn [b2z Z.eqb]; [now apply Hk|]. unfold complain. cbn [eval_tree of_verdict]. now rewrite bytes_exp_eval.
Qed.
Lemma extend_0 : forall vars k a l, extend vars k (a :: l) k = a.
Proof. intros. unfold extend. rewrite Nat.leb_refl, Nat.sub_diag. cbn [List.length]. destruct (Nat.ltb_spec k (k + S (List.length l))); [reflexivity|lia]. Qed.
Lemma extend_1 : forall vars k a b l, extend vars k (a :: b :: l) (S k) = b.
Proof.
  intros. unfold extend. replace (S k - k)%nat with 1%nat by lia. cbn [List.length nth]. destruct (Nat.leb_spec k (S k)); [|lia].
  destruct (Nat.ltb_spec (S k) (k + S (S (List.length l)))); [reflexivity|lia].
Qed.
Lemma extend_before : forall vars k l i, (i < k)%nat -> extend vars k l i = vars i.
Proof. intros vars k l i H. unfold extend. destruct (Nat.leb_spec k i); [lia|reflexivity]. Qed.
Definition settled (k : nat) (e : exp) : Prop := match e with EC _ => True | EV j => (j < k)%nat | _ => False end.
Lemma settled_extend : forall vars k l e, settled k e -> ev (extend vars k l) e = ev vars e.
Proof. intros vars k l e H. destruct e; cbn in H; try contradiction; [reflexivity|]. cbn [eval]. now apply extend_before. Qed.
Lemma settled_le : forall k k' e, (k <= k')%nat -> settled k e -> settled k' e.
Proof. intros k k' e H. destruct e; cbn; lia || tauto. Qed.

Definition in_word (z : Z) : Prop := 0 <= z < W.
Lemma sum_sound : forall n ic i a vars vx vy v k cont K,
  a = 4 + 32 * Z.of_nat i -> (n <= List.length ic)%nat -> Forall (fun p => in_word (X1 p) /\ in_word (Y1 p)) ic ->
  settled k vx -> settled k vy -> ev vars vx = X1 v -> ev vars vy = Y1 v ->
  (forall vars vx vy v k, settled k vx -> settled k vy -> ev vars vx = X1 v -> ev vars vy = Y1 v -> et vars (cont vx vy k) = Some (of_verdict (K v))) ->
  et vars (sum_tree ic n a vx vy k cont) = Some (of_verdict (sum_inputs ecAdd ecMul ic (map (word_at (skipn 4 cd)) (seq i n)) v K)).
Proof.
  induction n as [|n IH]; intros ic i a vars vx vy v k cont K Ea Hn Hic Sx Sy Ex Ey Hc; [now apply Hc|].
  destruct ic as [|p ic]; [cbn in Hn; lia|]. inversion_clear Hic as [|? ? [Px Py] Hic']. cbn [sum_tree seq map sum_inputs].
  apply et_check; [split; [discriminate|reflexivity]| |subst a; now rewrite cdword_arg|].
  { unfold ok_msg. vm_compute. repeat constructor; discriminate. }
  intros _. rewrite et_mul. cbn [eval]. rewrite (Z.mod_small (X1 p)), (Z.mod_small (Y1 p)) by assumption. subst a. rewrite cdword_arg.
  unfold result_of. replace (G1 (X1 p) (Y1 p)) with p by (now destruct p). destruct (ecMul p (word_at (skipn 4 cd) i)) as [q|]; [|reflexivity].
  rewrite et_add. rewrite !settled_extend by assumption. cbn [eval]. rewrite extend_0, extend_1, Ex, Ey.
  replace (G1 (X1 v) (Y1 v)) with v by (now destruct v). replace (G1 (X1 q) (Y1 q)) with q by (now destruct q).
  destruct (ecAdd v q) as [v'|]; [|reflexivity].
  apply IH; try assumption; try (cbn [settled List.length] in *; lia); cbn [eval]; (apply extend_0 || apply extend_1).
Qed.
Lemma et_answer : forall vars k b, vars k = b2z b -> et vars (answer k) = Some (of_verdict (Answer b)).
Proof.
  intros vars k b H. unfold answer. cbn [eval_tree of_verdict]. f_equal. f_equal. unfold evald, be_bytes. rewrite map_map. apply map_ext. intros i. cbn [fst snd].
  f_equal. cbn [eval]. rewrite H. now destruct b.
Qed.
Definition g1_word (p : G1Point) : Prop := in_word (X1 p) /\ in_word (Y1 p).
Definition g2_word (p : G2Point) : Prop := (in_word (fst (X2 p)) /\ in_word (snd (X2 p))) /\ in_word (fst (Y2 p)) /\ in_word (snd (Y2 p)).
Definition vk_word (vk : VerifyingKey) : Prop :=
  g1_word (alfa1 vk) /\ g2_word (beta2 vk) /\ g2_word (gamma2 vk) /\ g2_word (delta2 vk) /\ Forall g1_word (IC vk).
Notation w := (word_at (skipn 4 cd)).
Lemma cdw : forall i a, a = 4 + 32 * Z.of_nat i -> cdword cd a = w i.
Proof. intros i a ->. apply cdword_arg. Qed.
Lemma pair_sound : forall vk vars ax ay vx vy A v k, vk_word vk -> ev vars ax = X1 A -> ev vars ay = Y1 A -> ev vars vx = X1 v -> ev vars vy = Y1 v ->
  et vars (pair_tree vk ax ay vx vy k) =
  Some (of_verdict (result_of (ecPairing [(A, G2 (w 2%nat, w 3%nat) (w 4%nat, w 5%nat)); (alfa1 vk, beta2 vk); (v, gamma2 vk); (G1 (w 6%nat) (w 7%nat), delta2 vk)]) Answer)).
Proof.
  intros vk vars ax ay vx vy A v k (Ha & Hb & Hg & Hd & _) E1 E2 E3 E4. unfold pair_tree. rewrite et_pairing by (cbn; lia).
  unfold g1_exp, g2_exp. cbn [app map List.length]. unfold g1_word, g2_word, in_word in *. cbn [eval]. rewrite E1, E2, E3, E4.
  rewrite (cdw 2 68), (cdw 3 100), (cdw 4 132), (cdw 5 164), (cdw 6 196), (cdw 7 228) by reflexivity.
  repeat rewrite (fun a H => Z.mod_small a W H) by tauto.
  destruct vk as [[a1 a2] [[b1 b2] [b3 b4]] [[g1 g2] [g3 g4]] [[d1 d2] [d3 d4]] ic]. cbn [alfa1 beta2 gamma2 delta2 X1 Y1 X2 Y2 fst snd pairs result_of].
  replace (G1 (X1 A) (Y1 A)) with A by (now destruct A). replace (G1 (X1 v) (Y1 v)) with v by (now destruct v).
  unfold result_of. destruct (ecPairing _) as [b|]; [|reflexivity]. apply et_answer. apply extend_0.
Qed.
Lemma ev_u : forall vars o e, ev vars (EU o e) = un o (ev vars e).
Proof. reflexivity. Qed.
Lemma ev_b : forall vars o e1 e2, ev vars (EB o e1 e2) = bin o (ev vars e1) (ev vars e2).
Proof. reflexivity. Qed.
Lemma ev_c : forall vars z, ev vars (EC z) = z mod W.
Proof. reflexivity. Qed.
Lemma neg_sound : forall vk vars vx vy v k, vk_word vk -> ev vars vx = X1 v -> ev vars vy = Y1 v ->
  et vars (neg_tree vk vx vy k) =
  Some (of_verdict (result_of (ecPairing [(negate (G1 (w 0%nat) (w 1%nat)), G2 (w 2%nat, w 3%nat) (w 4%nat, w 5%nat)); (alfa1 vk, beta2 vk); (v, gamma2 vk); (G1 (w 6%nat) (w 7%nat), delta2 vk)]) Answer)).
Proof.
  intros vk vars vx vy v k Hvk Ex Ey. unfold neg_tree.
  assert (Q1 : PRIME_Q mod W = PRIME_Q) by reflexivity. assert (Q2 : 0 < PRIME_Q < W) by (split; reflexivity).
  pose proof (Z.mod_pos_bound (w 1%nat) PRIME_Q ltac:(lia)) as Q3.
  assert (Em : ev vars minus_y = PRIME_Q - w 1%nat mod PRIME_Q).
  { unfold minus_y. cbn [eval]. rewrite (cdw 1 36) by reflexivity. rewrite Q1. cbn [bin]. destruct (Z.eqb_spec PRIME_Q 0); [lia|]. apply Z.mod_small. lia. }
  assert (Ec : forall t f, et vars (TIf (EU ISZERO (EB GT minus_y (EC PRIME_Q))) t f) = et vars t).
  { intros t f. apply et_yes. rewrite ev_u, ev_b, Em, ev_c, Q1. cbn [bin].
    destruct (Z.ltb_spec PRIME_Q (PRIME_Q - w 1%nat mod PRIME_Q)); [lia|discriminate]. }
  assert (En : forall i a t f, a = 4 + 32 * Z.of_nat i -> et vars (TIf (EU ISZERO (EB EQ (ECD a) (EC 0))) t f) = if w i =? 0 then et vars f else et vars t).
  { intros i a t f Ea. rewrite et_if. cbn [eval]. rewrite (cdw i a Ea). cbn [bin]. change (0 mod W) with 0. now destruct (w i =? 0). }
  rewrite (En 0%nat 4) by reflexivity. rewrite (En 0%nat 4), (En 1%nat 36), !Ec by reflexivity. unfold negate. cbn [X1 Y1].
  assert (M : et vars (pair_tree vk (ECD 4) minus_y vx vy k) = Some (of_verdict (result_of (ecPairing [(G1 (w 0%nat) (PRIME_Q - w 1%nat mod PRIME_Q), G2 (w 2%nat, w 3%nat) (w 4%nat, w 5%nat)); (alfa1 vk, beta2 vk); (v, gamma2 vk); (G1 (w 6%nat) (w 7%nat), delta2 vk)]) Answer))).
  { apply pair_sound; try assumption. cbn [eval X1]. now apply cdw. }
  assert (Zr : et vars (pair_tree vk (EC 0) (EC 0) vx vy k) = Some (of_verdict (result_of (ecPairing [(G1 0 0, G2 (w 2%nat, w 3%nat) (w 4%nat, w 5%nat)); (alfa1 vk, beta2 vk); (v, gamma2 vk); (G1 (w 6%nat) (w 7%nat), delta2 vk)]) Answer))).
  { apply pair_sound; try assumption; reflexivity. }
  destruct (w 0%nat =? 0) eqn:E0; cbn [andb]; [|exact M]. destruct (w 1%nat =? 0); [exact Zr|exact M].
Qed.
Lemma spec_sound : forall vk vars, vk_word vk -> List.length (IC vk) = 8%nat ->
  et vars (spec_tree vk) =
  Some (of_verdict (verify ecAdd ecMul ecPairing vk (w 0%nat, w 1%nat) ((w 2%nat, w 3%nat), (w 4%nat, w 5%nat)) (w 6%nat, w 7%nat) (map w (seq 8 7)))).
Proof.
  intros vk vars Hvk Hl. unfold spec_tree, verify. cbn [fst snd].
  assert (Q2 : 0 <= PRIME_Q < W) by (split; [discriminate|reflexivity]).
  do 8 (apply et_check; [exact Q2|unfold ok_msg; vm_compute; repeat constructor; discriminate|now rewrite <- (cdw _ _ eq_refl)|intros _]).
  apply (sum_sound 7 _ 8%nat); try reflexivity; try exact I.
  - destruct (IC vk); cbn in *; lia.
  - destruct Hvk as (_ & _ & _ & _ & H). destruct H; [constructor|assumption].
  - clear vars. intros vars vx vy v k Sx Sy Ex Ey. unfold g1_exp. cbn [app]. rewrite et_add. cbn [eval]. rewrite Ex, Ey.
    destruct Hvk as (H1 & H2 & H3 & H4 & H5). assert (Hh : g1_word (hd (G1 0 0) (IC vk))).
    { destruct H5; [|assumption]. split; (split; [discriminate|reflexivity]). }
    destruct Hh as [Hx Hy]. rewrite (Z.mod_small _ _ Hx), (Z.mod_small _ _ Hy).
    replace (G1 (X1 v) (Y1 v)) with v by (now destruct v). replace (G1 (X1 (hd (G1 0 0) (IC vk))) (Y1 (hd (G1 0 0) (IC vk)))) with (hd (G1 0 0) (IC vk)) by (now destruct (hd (G1 0 0) (IC vk))).
    unfold result_of at 1. destruct (ecAdd v _) as [v'|]; [|reflexivity]. apply neg_sound; [now split; [|split; [|split; [|split]]]|apply extend_0|apply extend_1].
Qed.
Lemma word_dec : forall z, (0 <=? z) && (z <? W) = true -> in_word z.
Proof. intros z H. apply andb_prop in H. destruct H as [H1 H2]. apply Z.leb_le in H1. apply Z.ltb_lt in H2. split; assumption. Qed.
Lemma g1_dec : forall x y, (0 <=? x) && (x <? W) = true -> (0 <=? y) && (y <? W) = true -> g1_word (G1 x y).
Proof. intros x y Hx Hy. split; apply word_dec; assumption. Qed.
Lemma g2_dec : forall x y z t, (0 <=? x) && (x <? W) = true -> (0 <=? y) && (y <? W) = true -> (0 <=? z) && (z <? W) = true -> (0 <=? t) && (t <? W) = true ->
  g2_word (G2 (x, y) (z, t)).
Proof. intros x y z t H1 H2 H3 H4. split; (split; apply word_dec; assumption). Qed.
Lemma gnark_word : vk_word GnarkTest_vk.
Proof.
  unfold vk_word, GnarkTest_vk. cbn [alfa1 beta2 gamma2 delta2 IC].
  repeat match goal with
  | |- _ /\ _ => split
  | |- g1_word _ => apply g1_dec; reflexivity
  | |- g2_word _ => apply g2_dec; reflexivity
  | |- Forall _ [] => constructor
  | |- Forall _ (_ :: _) => constructor
  end.
Qed.
(** call data that does not fit *)
Lemma et_misfit : forall vars, value <> 0 \/ (List.length cd < 484)%nat \/ firstn 4 cd <> selector -> et vars the_tree = Some (RRevert []).
Proof.
  intros vars H.
  assert (Sh : exists u, the_tree = TIf (EU ISZERO EValue) (TIf (EB LT ESize (EC 4)) (TRev []) (TIf (EB EQ (EC 3365201751) (EB SHR (EC 224) (ECD 0)))
     (TIf (EU ISZERO (EB SLT (EB SUB (EB ADD (EC 4) (EB SUB ESize (EC 4))) (EC 4)) (EC 480))) u (TRev [])) (TRev []))) (TRev [])) by (eexists; reflexivity).
  destruct Sh as [u ->].
  destruct (Z.eq_dec value 0) as [Ev|Nv].
  2:{ rewrite et_no; [reflexivity|]. cbn [eval un]. destruct (Z.eqb_spec value 0); [contradiction|reflexivity]. }
  rewrite et_yes by (cbn [eval un]; rewrite Ev; discriminate).
  assert (E4 : ev vars (EB LT ESize (EC 4)) = b2z (Z.of_nat (List.length cd) <? 4)) by reflexivity.
  destruct (Z.ltb_spec (Z.of_nat (List.length cd)) 4) as [L4|L4].
  { rewrite et_yes by (rewrite E4; discriminate). reflexivity. }
  rewrite et_no by (rewrite E4; reflexivity).
  assert (Es : ev vars (EB EQ (EC 3365201751) (EB SHR (EC 224) (ECD 0))) = b2z (3365201751 =? cdword cd 0 / 2 ^ 224)) by reflexivity.
  pose proof (cdword_selector cd cd_bytes ltac:(lia)) as Sel.
  destruct (Z.eqb_spec 3365201751 (cdword cd 0 / 2 ^ 224)) as [S1|S1].
  2:{ rewrite et_no by (rewrite Es; reflexivity). reflexivity. }
  rewrite et_yes by (rewrite Es; discriminate).
  assert (Lt : (List.length cd < 484)%nat). { destruct H as [H|[H|H]]; [contradiction|exact H|]. exfalso. apply H, Sel. now symmetry. }
  rewrite et_no; [reflexivity|].
  change (un ISZERO (bin SLT (bin SUB (ev vars (EB ADD (EC 4) (EB SUB ESize (EC 4)))) 4) 480) = 0). rewrite size_expr by lia.
  cbn [bin]. rewrite word_lt by lia. change (b2z (signed (Z.of_nat (List.length cd) - 4) <? signed 480)) with (bin SLT (Z.of_nat (List.length cd) - 4) 480).
  rewrite slt_small by lia. destruct (Z.ltb_spec (Z.of_nat (List.length cd) - 4) 480); [reflexivity|lia].
Qed.
Lemma et_contract : forall vars, et vars the_tree = Some (contract ecAdd ecMul ecPairing cd value).
Proof.
  intros vars. unfold contract.
  destruct (Z.eqb_spec value 0) as [Ev|Nv]; cbn [negb]; [|now apply et_misfit; left].
  destruct (Nat.ltb_spec (List.length cd) 484) as [L|L]; [now apply et_misfit; right; left|].
  destruct (list_eq_dec Z.eq_dec (firstn 4 cd) selector) as [S1|S1]; cbn [negb]; [|now apply et_misfit; right; right].
  rewrite <- prune_sound by (split; [exact Ev|split; [lia|exact S1]]). rewrite pruned. rewrite spec_sound.
  - unfold of_verdict. reflexivity.
  - exact gnark_word.
  - reflexivity.
Qed.
End Main.

Lemma contract_not_fuel : forall ecAdd ecMul ecPairing cd value, contract ecAdd ecMul ecPairing cd value <> ROutOfFuel.
Proof.
  intros. unfold contract. destruct (negb _); [discriminate|]. destruct (_ <? _)%nat; [discriminate|]. destruct (negb _); [discriminate|].
  destruct (verify _ _ _ _ _ _ _ _); discriminate.
Qed.

(** For every call data, payment, gas readings, and results of the precompiled contracts, the deployed code does what the
    source says: the same answer, the same revert data, the same failures. *)
Theorem C96_bytecode : forall ecAdd ecMul ecPairing gas cd value fuel,
  Forall (fun b => 0 <= b < 256) cd -> Z.of_nat (List.length cd) < 2 ^ 255 -> 0 <= value < 2 ^ 256 ->
  (forall p q r, ecAdd p q = Some r -> 0 <= X1 r < 2 ^ 256 /\ 0 <= Y1 r < 2 ^ 256) ->
  (forall p s r, ecMul p s = Some r -> 0 <= X1 r < 2 ^ 256 /\ 0 <= Y1 r < 2 ^ 256) ->
  (2 ^ 14 <= fuel)%nat ->
  call_contract (precompiled ecAdd ecMul ecPairing) gas runtime cd value fuel = contract ecAdd ecMul ecPairing cd value.
Proof.
  intros ecAdd ecMul ecPairing gas cd value fuel Hb Hs Hv Ha Hm Hf. unfold call_contract. rewrite runtime_prog_eq.
  apply (run_more _ _ _ _ _ _ (2 ^ 14)); [|apply contract_not_fuel|exact Hf].
  apply (srun_sound runtime runtime_prog cd value gas ecAdd ecMul ecPairing) with (vars := fun _ => 0) (ss := sstart); try assumption.
  - apply (Z.lt_trans _ _ _ Hs). reflexivity.
  - apply start_rel; [assumption|]. intros i. split; [discriminate|reflexivity].
  - rewrite the_tree_run. now apply et_contract.
Qed.

(** a call says yes exactly when the modelled source does *)
Theorem C96_yes : forall ecAdd ecMul ecPairing gas cd value fuel,
  Forall (fun b => 0 <= b < 256) cd -> Z.of_nat (List.length cd) < 2 ^ 255 -> 0 <= value < 2 ^ 256 ->
  (forall p q r, ecAdd p q = Some r -> 0 <= X1 r < 2 ^ 256 /\ 0 <= Y1 r < 2 ^ 256) ->
  (forall p s r, ecMul p s = Some r -> 0 <= X1 r < 2 ^ 256 /\ 0 <= Y1 r < 2 ^ 256) ->
  (2 ^ 14 <= fuel)%nat ->
  (call_contract (precompiled ecAdd ecMul ecPairing) gas runtime cd value fuel = RReturn (be_bytes 1) <->
   value = 0 /\ (484 <= List.length cd)%nat /\ firstn 4 cd = selector /\
   let w := word_at (skipn 4 cd) in
   verifyProof ecAdd ecMul ecPairing GnarkTest_vk (w 0%nat, w 1%nat) ((w 2%nat, w 3%nat), (w 4%nat, w 5%nat)) (w 6%nat, w 7%nat) (map w (seq 8 7)) = Some true).
Proof.
  intros ecAdd ecMul ecPairing gas cd value fuel Hb Hs Hv Ha Hm Hf. rewrite C96_bytecode by assumption. cbv zeta.
  rewrite <- C96_same_source by (rewrite map_length, seq_length; change (List.length (IC GnarkTest_vk)) with 8%nat; lia).
  unfold contract. destruct (Z.eqb_spec value 0) as [Ev|Nv]; cbn [negb]; [|split; [discriminate|intros (E & _); contradiction]].
  destruct (Nat.ltb_spec (List.length cd) 484) as [L|L]; [split; [discriminate|intros (_ & E & _); lia]|].
  destruct (list_eq_dec Z.eq_dec (firstn 4 cd) selector) as [S1|S1]; cbn [negb]; [|split; [discriminate|intros (_ & _ & E & _); contradiction]].
  set (v := verify _ _ _ _ _ _ _ _). clearbody v. split.
  - intros H. split; [exact Ev|split; [exact L|split; [exact S1|]]]. destruct v as [[|]|msg|]; try discriminate. reflexivity.
  - intros (_ & _ & _ & H). destruct v as [[|]|msg|]; try discriminate. reflexivity.
Qed.

(** Deployment: the init code returns the runtime code, and takes no payment. *)
Definition init_prog : prog := Eval vm_compute in decode VerifierBin.
Lemma init_decode : decode VerifierBin = init_prog.
Proof. vm_compute. reflexivity. Qed.

Lemma run_step : forall code prg cd value gas pre f s s', step code prg cd value gas pre s = inl s' ->
  run code prg cd value gas pre (S f) s = run code prg cd value gas pre f s'.
Proof. intros code prg cd value gas pre f s s' H. cbn [run]. rewrite H. reflexivity. Qed.

Lemma bin_length : (Z.to_nat 32 + Z.to_nat 8104 = length VerifierBin)%nat.
Proof. vm_compute. reflexivity. Qed.
Lemma runtime_length : 8104 = Z.of_nat (length (skipn (Z.to_nat 32) VerifierBin)).
Proof. vm_compute. reflexivity. Qed.

(** what was copied is read back *)
Lemma mbytes_mwrite : forall m l n, n = Z.of_nat (length l) -> mbytes (mwrite m 0 l) 0 n = l.
Proof.
  intros m l n ->. unfold mbytes. rewrite Nat2Z.id. apply (nth_ext _ _ 0 0); [rewrite map_length, seq_length; reflexivity|].
  intros i Hi. rewrite map_length, seq_length in Hi.
  rewrite (nth_indep _ 0 ((fun i => mwrite m 0 l (0 + Z.of_nat i)) O)) by (rewrite map_length, seq_length; exact Hi).
  rewrite (map_nth (fun i => mwrite m 0 l (0 + Z.of_nat i))), seq_nth by exact Hi.
  unfold mwrite. replace (0 <=? 0 + Z.of_nat (0 + i)) with true by (symmetry; apply Z.leb_le; lia).
  replace (0 + Z.of_nat (0 + i) <? 0 + Z.of_nat (length l)) with true by (symmetry; apply Z.ltb_lt; lia).
  cbn [andb]. f_equal. lia.
Qed.

Lemma copied_suffix : forall (l : list Z) a n, (a + n = length l)%nat -> map (fun k => nth (a + k) l 0) (seq 0 n) = skipn a l.
Proof.
  intros l a n H. apply (nth_ext _ _ 0 0); [rewrite map_length, seq_length, skipn_length; lia|].
  intros i Hi. rewrite map_length, seq_length in Hi.
  rewrite (nth_indep _ 0 ((fun k => nth (a + k) l 0) O)) by (rewrite map_length, seq_length; exact Hi).
  rewrite (map_nth (fun k => nth (a + k) l 0)), seq_nth by exact Hi. cbn [Nat.add].
  rewrite <- (firstn_skipn a l) at 1. rewrite app_nth2; rewrite firstn_length; [|lia]. f_equal. lia.
Qed.

Ltac one_step :=
  match goal with |- run ?c ?p ?d ?v ?g ?pr (S _) ?s = _ =>
    let x := eval lazy -[mstore mwrite VerifierBin nth seq map Z.to_nat Nat.add] in (step c p d v g pr s) in
    match x with
    | inl ?t => rewrite (run_step c p d v g pr _ s t (eq_refl x))
    end
  end.

Theorem C96_deploy : forall pre gas fuel, (64 <= fuel)%nat ->
  call_contract pre gas VerifierBin [] 0 fuel = RReturn runtime /\
  forall value, 0 < value < 2 ^ 256 -> call_contract pre gas VerifierBin [] value fuel = RRevert [].
Proof.
  intros pre gas fuel Hf. unfold call_contract. rewrite init_decode.
  split.
  - apply (run_more _ _ _ _ _ _ 64); [|discriminate|exact Hf]. unfold start.
    do 16 one_step. set (m := mwrite _ _ _).
    change (RReturn (mbytes m 0 8104) = RReturn runtime). apply f_equal. unfold m.
    rewrite copied_suffix by exact bin_length. rewrite mbytes_mwrite by exact runtime_length. reflexivity.
  - intros value Hv. apply (run_more _ _ _ _ _ _ 64); [|discriminate|exact Hf]. unfold start.
    destruct value as [|p|p]; [lia| |lia]. do 10 one_step. reflexivity.
Qed.

(** A call that is answered: fifteen words equal to one, precompiled contracts that always give the point (1, 2) and true.
    Without the last byte it is refused; with a coordinate that is too large it is refused with the message. *)
Definition case_data : list Z := selector ++ List.concat (repeat (be_bytes 1) 15).
Definition case_pre := precompiled (fun _ _ => Some (G1 1 2)) (fun _ _ => Some (G1 1 2)) (fun _ => Some true).
Example C96_case :
  Forall (fun b => 0 <= b < 256) case_data /\
  call_contract case_pre (fun _ => 0) runtime case_data 0 (2 ^ 14) = RReturn (be_bytes 1) /\
  call_contract case_pre (fun _ => 0) runtime (removelast case_data) 0 (2 ^ 14) = RRevert [] /\
  call_contract case_pre (fun _ => 0) runtime (selector ++ List.concat (repeat (be_bytes PRIME_Q) 15)) 0 (2 ^ 14) = RRevert (error_data "verifier-aX-gte-prime-q").
Proof.
  split; [|vm_compute; repeat split].
  unfold case_data. apply Forall_app. split; [vm_compute; repeat constructor; discriminate|].
  apply Forall_concat, Forall_forall. intros l Hl. apply repeat_spec in Hl. subst l. apply Forall_forall. intros b Hb. unfold be_bytes in Hb.
  apply in_map_iff in Hb. destruct Hb as (i & <- & _). apply Z.mod_pos_bound. lia.
Qed.

Print Assumptions C96_same_source.
Print Assumptions C96_bytecode.
Print Assumptions C96_yes.
Print Assumptions C96_deploy.
Print Assumptions C96_case.
