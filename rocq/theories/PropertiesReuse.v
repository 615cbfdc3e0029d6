(** Theorems for properties C88-C90 (provers and verifiers over pointers: reuse, aliasing and the shared pool). *)
From Coq Require Import ZArith Bool String List Lia.
From Verif Require Import GoBig GoBigFacts FSModel PokeModel SquaresModel RangeModel PoolLang PoolLangProofs PoolPrograms PoolReadings.
Import ListNotations.
Local Open Scope string_scope.
Local Open Scope Z_scope.

(** *** On the machine *)
(** what a prover leaves at its fields: the numbers zs, in cells that are ours and were not ours before *)
Definition made (S S' : rstate) (xs : list var) (zs : list Z) : Prop :=
  Forall2 (fun x z => exists a, renv S' x = Some a /\ In a (mine S') /\ heap S' a = z /\ ~ In a (mine S)) xs zs.
Lemma made_of : forall S S' A, left_by S S' A -> forall xs zs, map (val A) xs = map Some zs -> made S S' xs zs.
Proof.
  intros S S' A (_ & _ & _ & _ & _ & L). induction xs as [|x xs IH]; intros [|z zs] E; try discriminate E; [constructor|].
  cbn [map] in E. injection E as E1 E2. constructor; [|now apply IH]. unfold val in E1.
  destruct (look (aenv A) x) as [| |i] eqn:EX; try discriminate. destruct (nth_error (store A) i) as [[w []]|] eqn:EI; try discriminate. injection E1 as ->.
  destruct (L x i z EX EI) as [(a & Ra & Ia & Ha) N]. exists a. auto.
Qed.

Section Machine.
Variable sha : string -> string.
Variable coin : nat -> Z -> option Z.
Variable squares : Z -> option (Z * Z * Z).
Variable junk : nat -> Z.
Variable pick : nat -> nat.
Variable env : rstate -> (nat -> Z) * nat * list nat.
Notation exec := (PoolLang.exec (interp sha) coin squares (hash_list sha) junk pick env).

(** one call of Prove on any prover object, with other goroutines running *)
Theorem C88_aop_call : respectful env -> forall S n g h r sp x, wf S -> points S (aop_object n g h r sp) -> holds S "x" x ->
  match exec (IFrame aop_prove_body) S with
  | RDone S' => exists k C pf, drawn coin (rdraws S) (aop_draws n sp k) /\ squares (4 * x + 1) <> None /\
      AoP_Prove sha (ts_of squares) (pp_of n g h) r x k = Ret (C, pf) /\
      made S S' aop_fields (aop_numbers C pf) /\ routs S' = ("commitment", ap_commitment pf) :: routs S /\ wf S' /\ keeps S S'
  | RErr S' => (forall k, ~ (drawn coin (rdraws S) (aop_draws n sp k) /\ squares (4 * x + 1) <> None)) /\ wf S' /\ keeps S S'
  | RCrash => forall k, drawn coin (rdraws S) (aop_draws n sp k) -> squares (4 * x + 1) <> None -> AoP_Prove sha (ts_of squares) (pp_of n g h) r x k = Panic
  end.
Proof.
  intros HR S n g h r sp x W PO PX.
  assert (IN : Forall (fun p => holds S (fst p) (snd p)) (aop_object n g h r sp ++ [("x", x)])) by (apply Forall_app; split; [exact PO|constructor; [exact PX|constructor]]).
  pose proof (call (interp sha) coin squares (hash_list sha) junk pick env true HR ltac:(discriminate) aop_prove_body _ S W IN) as C.
  pose proof (aop_reading sha coin squares junk n g h r sp x (rdraws S) (rgets S) (routs S)) as RD.
  destruct (PoolLang.aexec _ _ _ _ _ _ _ _) as [A|A| |]; [| | |contradiction].
  - destruct C as (S' & E & L). destruct RD as (k & C & pf & D & SQ & PR & V & O). rewrite E. exists k, C, pf.
    pose proof (made_of _ _ _ L _ _ V) as M. destruct L as (L1 & L2 & L3 & L4 & L5 & L6). repeat (split; [assumption|]). split; [congruence|]. split; assumption.
  - destruct C as (S' & E & L). rewrite E. destruct L as (L1 & L2 & _). split; [exact RD|]. split; assumption.
  - rewrite C. exact RD.
Qed.
Theorem C89_rp_call : alone env -> fair coin -> forall S n g h r a b sp x, wf S -> points S (rp_object n g h r a b sp) -> holds S "x" x ->
  match exec (IFrame rp_prove_body) S with
  | RDone S' => exists k pf, drawn coin (rdraws S) (rp_draws n sp k) /\ squares (rp_target a b x) <> None /\
      RP_Prove sha (ts_of squares) (pp_of n g h) r a b x k = Ret pf /\
      made S S' rp_fields (rp_numbers pf) /\ routs S' = ("commitment", rp_commit pf) :: routs S /\ wf S' /\ keeps S S'
  | RErr S' => (forall k, ~ (drawn coin (rdraws S) (rp_draws n sp k) /\ squares (rp_target a b x) <> None)) /\ wf S' /\ keeps S S'
  | RCrash => forall k, drawn coin (rdraws S) (rp_draws n sp k) -> squares (rp_target a b x) <> None -> RP_Prove sha (ts_of squares) (pp_of n g h) r a b x k = Panic
  end.
Proof.
  intros HA F S n g h r a b sp x W PO PX.
  assert (IN : Forall (fun p => holds S (fst p) (snd p)) (rp_object n g h r a b sp ++ [("x", x)])) by (apply Forall_app; split; [exact PO|constructor; [exact PX|constructor]]).
  pose proof (call (interp sha) coin squares (hash_list sha) junk pick env false (alone_respectful _ HA) (fun _ => HA) rp_prove_body _ S W IN) as C.
  pose proof (rp_reading sha coin squares junk F n g h r a b sp x (rdraws S) (rgets S) (routs S)) as RD.
  destruct (PoolLang.aexec _ _ _ _ _ _ _ _) as [A|A| |]; [| | |contradiction].
  - destruct C as (S' & E & L). destruct RD as (k & pf & D & SQ & PR & V & O). rewrite E. exists k, pf.
    pose proof (made_of _ _ _ L _ _ V) as M. destruct L as (L1 & L2 & L3 & L4 & L5 & L6). repeat (split; [assumption|]). split; [congruence|]. split; assumption.
  - destruct C as (S' & E & L). rewrite E. destruct L as (L1 & L2 & _). split; [exact RD|]. split; assumption.
  - rewrite C. exact RD.
Qed.

(** a call of Verify, with other goroutines running: the answer is that of the value-level verifier, for some content of a
    borrowed number, and neither the proof nor the parameters are touched *)
Theorem C90_aop_verify : respectful env -> forall S n g h c pf, wf S -> points S (params n g h ++ aop_proof_at c pf) ->
  match exec (IFrame aop_verify_body) S with
  | RDone S' => wf S' /\ keeps S S' /\ exists bytes, routs S' = ("computed", bytes) :: routs S /\
      fst (AoP_Verify sha (NewZKAoPVerifier (pp_of n g h) c) pf (junk (3 + rgets S))) = Ret (bytes =? ap_commitment pf)%string
  | RErr S' => False
  | RCrash => fst (AoP_Verify sha (NewZKAoPVerifier (pp_of n g h) c) pf (junk (3 + rgets S))) = Panic
  end.
Proof.
  intros HR S n g h c pf W IN.
  pose proof (call (interp sha) coin squares (hash_list sha) junk pick env true HR ltac:(discriminate) aop_verify_body _ S W IN) as C.
  pose proof (aop_vreading sha coin squares junk n g h c pf (rdraws S) (rgets S) (routs S)) as RD.
  destruct (PoolLang.aexec _ _ _ _ _ _ _ _) as [A|A| |]; [| contradiction| |contradiction].
  - destruct C as (S' & E & L1 & L2 & L3 & L4 & L5 & L6). rewrite E. split; [assumption|]. split; [assumption|]. rewrite L5. exact RD.
  - rewrite C. exact RD.
Qed.
Theorem C90_rp_verify : respectful env -> forall S n g h a b pf, wf S -> points S (params n g h ++ rp_proof_at a b pf) ->
  match exec (IFrame rp_verify_body) S with
  | RDone S' => wf S' /\ keeps S S' /\ exists bytes, routs S' = ("computed", bytes) :: routs S /\
      fst (RP_Verify sha (NewRPVerifier (pp_of n g h) a b) pf) = Ret (bytes =? rp_commit pf)%string
  | RErr S' => False
  | RCrash => fst (RP_Verify sha (NewRPVerifier (pp_of n g h) a b) pf) = Panic
  end.
Proof.
  intros HR S n g h a b pf W IN.
  pose proof (call (interp sha) coin squares (hash_list sha) junk pick env true HR ltac:(discriminate) rp_verify_body _ S W IN) as C.
  pose proof (rp_vreading sha coin squares junk n g h a b pf (rdraws S) (rgets S) (routs S)) as RD.
  destruct (PoolLang.aexec _ _ _ _ _ _ _ _) as [A|A| |]; [| contradiction| |contradiction].
  - destruct C as (S' & E & L1 & L2 & L3 & L4 & L5 & L6). rewrite E. split; [assumption|]. split; [assumption|]. rewrite L5. exact RD.
  - rewrite C. exact RD.
Qed.

(** ** Many calls on one prover *)
(** between calls the caller may make numbers, bind x to any of them and keep pointers to the proofs; it leaves the numbers
    it has handed out alone, and the fields of the prover too *)
Definition caller (fields : list var) (S S' : rstate) : Prop := wf S' /\ keeps S S' /\ forall f, In f fields -> renv S' f = renv S f.
(** for each call that succeeded: x and the pointers of the proof *)
Inductive session (body : list instr) (fields outs : list var) (S : rstate) : list (Z * list (option nat)) -> rstate -> Prop :=
| session_start : session body fields outs S [] S
| session_caller : forall l S1 S2, session body fields outs S l S1 -> caller fields S1 S2 -> session body fields outs S l S2
| session_done : forall l S1 S2 x, session body fields outs S l S1 -> holds S1 "x" x -> exec (IFrame body) S1 = RDone S2 ->
    session body fields outs S ((x, map (renv S2) outs) :: l) S2
| session_err : forall l S1 S2 x, session body fields outs S l S1 -> holds S1 "x" x -> exec (IFrame body) S1 = RErr S2 -> session body fields outs S l S2.
(** the pointers still lead to these numbers *)
Definition intact (S : rstate) (ps : list (option nat)) (zs : list Z) : Prop := Forall2 (fun p z => exists a, p = Some a /\ In a (mine S) /\ heap S a = z) ps zs.
Lemma intact_keeps : forall S S' ps zs, keeps S S' -> intact S ps zs -> intact S' ps zs.
Proof.
  intros S S' ps zs K H. induction H as [|p z ps zs (a & E & M & V) H IH]; constructor; [|assumption]. exists a. destruct (K a M) as [M' V']. repeat split; congruence.
Qed.
Lemma intact_made : forall S S' xs zs, made S S' xs zs -> intact S' (map (renv S') xs) zs.
Proof. intros S S' xs zs H. induction H as [|x z xs zs (a & E & M & V & _) H IH]; constructor; [|assumption]. exists a. auto. Qed.
Lemma holds_keeps : forall S S' x z, keeps S S' -> renv S' x = renv S x -> holds S x z -> holds S' x z.
Proof. intros S S' x z K E (a & Ea & M & V). destruct (K a M) as [M' V']. exists a. rewrite E. repeat split; congruence. Qed.
Lemma points_keeps : forall S S' ins, keeps S S' -> (forall f, In f (map fst ins) -> renv S' f = renv S f) -> points S ins -> points S' ins.
Proof.
  intros S S' ins K E H. unfold points in *. rewrite Forall_forall in *. intros p Hp. apply (holds_keeps S); auto. apply E. now apply in_map.
Qed.
Lemma renv_body : forall body S S' fs, (exec (IFrame body) S = RDone S' \/ exec (IFrame body) S = RErr S') ->
  forallb (fun f => negb (existsb (String.eqb f) (assigned (IFrame body)))) fs = true -> forall f, In f fs -> renv S' f = renv S f.
Proof.
  intros body S S' fs E H f Hf. rewrite forallb_forall in H. specialize (H f Hf). apply (unassigned_all (interp sha) coin squares (hash_list sha) junk pick env (IFrame body) S S' f E).
  intros I. apply negb_true_iff in H. enough (X : existsb (String.eqb f) (assigned (IFrame body)) = true) by congruence.
  apply existsb_exists. exists f. split; [assumption|apply String.eqb_refl].
Qed.

Theorem C88_aop_session : respectful env -> forall n g h r sp S l S', wf S -> points S (aop_object n g h r sp) ->
  session aop_prove_body (map fst (aop_object n g h r sp)) aop_fields S l S' ->
  wf S' /\ keeps S S' /\ points S' (aop_object n g h r sp) /\
  Forall (fun '(x, ps) => exists k C pf, AoP_Prove sha (ts_of squares) (pp_of n g h) r x k = Ret (C, pf) /\ intact S' ps (aop_numbers C pf)) l.
Proof.
  intros HR n g h r sp S l S' W PO HS.
  assert (KT : forall A B C, keeps A B -> keeps B C -> keeps A C) by (intros A B C K1 K2 q Hq; destruct (K1 q Hq) as [M V]; destruct (K2 q M) as [M' V']; split; [assumption|congruence]).
  induction HS as [|l S1 S2 HS IH (W2 & K2 & E2)|l S1 S2 x HS IH HX E|l S1 S2 x HS IH HX E].
  - split; [assumption|]. split; [intros q Hq; auto|]. split; [assumption|constructor].
  - destruct IH as (W1 & K1 & P1 & F). split; [assumption|]. split; [eapply KT; eassumption|]. split; [eapply points_keeps; eassumption|].
    eapply Forall_impl; [|exact F]. intros [y ps] (k & C & pf & PR & I). exists k, C, pf. split; [assumption|]. eapply intact_keeps; eassumption.
  - destruct IH as (W1 & K1 & P1 & F). pose proof (C88_aop_call HR S1 n g h r sp x W1 P1 HX) as C. rewrite E in C.
    destruct C as (k & C & pf & _ & _ & PR & M & _ & W2 & K2). split; [assumption|]. split; [eapply KT; eassumption|].
    split; [eapply points_keeps; [exact K2| |exact P1]; eapply renv_body; [left; exact E|reflexivity]|]. constructor.
    + exists k, C, pf. split; [assumption|]. eapply intact_made. exact M.
    + eapply Forall_impl; [|exact F]. intros [y ps] (k' & C' & pf' & PR' & I). exists k', C', pf'. split; [assumption|]. eapply intact_keeps; eassumption.
  - destruct IH as (W1 & K1 & P1 & F). pose proof (C88_aop_call HR S1 n g h r sp x W1 P1 HX) as C. rewrite E in C.
    destruct C as (_ & W2 & K2). split; [assumption|]. split; [eapply KT; eassumption|].
    split; [eapply points_keeps; [exact K2| |exact P1]; eapply renv_body; [right; exact E|reflexivity]|].
    eapply Forall_impl; [|exact F]. intros [y ps] (k' & C' & pf' & PR' & I). exists k', C', pf'. split; [assumption|]. eapply intact_keeps; eassumption.
Qed.
Theorem C89_rp_session_partial : alone env -> fair coin -> forall n g h r a b sp S l S', wf S -> points S (rp_object n g h r a b sp) ->
  session rp_prove_body (map fst (rp_object n g h r a b sp)) rp_fields S l S' ->
  wf S' /\ keeps S S' /\ points S' (rp_object n g h r a b sp) /\
  Forall (fun '(x, ps) => exists k pf, RP_Prove sha (ts_of squares) (pp_of n g h) r a b x k = Ret pf /\ intact S' ps (rp_numbers pf)) l.
Proof.
  intros HA FC n g h r a b sp S l S' W PO HS.
  assert (KT : forall A B C, keeps A B -> keeps B C -> keeps A C) by (intros A B C K1 K2 q Hq; destruct (K1 q Hq) as [M V]; destruct (K2 q M) as [M' V']; split; [assumption|congruence]).
  induction HS as [|l S1 S2 HS IH (W2 & K2 & E2)|l S1 S2 x HS IH HX E|l S1 S2 x HS IH HX E].
  - split; [assumption|]. split; [intros q Hq; auto|]. split; [assumption|constructor].
  - destruct IH as (W1 & K1 & P1 & F). split; [assumption|]. split; [eapply KT; eassumption|]. split; [eapply points_keeps; eassumption|].
    eapply Forall_impl; [|exact F]. intros [y ps] (k & pf & PR & I). exists k, pf. split; [assumption|]. eapply intact_keeps; eassumption.
  - destruct IH as (W1 & K1 & P1 & F). pose proof (C89_rp_call HA FC S1 n g h r a b sp x W1 P1 HX) as C. rewrite E in C.
    destruct C as (k & pf & _ & _ & PR & M & _ & W2 & K2). split; [assumption|]. split; [eapply KT; eassumption|].
    split; [eapply points_keeps; [exact K2| |exact P1]; eapply renv_body; [left; exact E|reflexivity]|]. constructor.
    + exists k, pf. split; [assumption|]. eapply intact_made. exact M.
    + eapply Forall_impl; [|exact F]. intros [y ps] (k' & pf' & PR' & I). exists k', pf'. split; [assumption|]. eapply intact_keeps; eassumption.
  - destruct IH as (W1 & K1 & P1 & F). pose proof (C89_rp_call HA FC S1 n g h r a b sp x W1 P1 HX) as C. rewrite E in C.
    destruct C as (_ & W2 & K2). split; [assumption|]. split; [eapply KT; eassumption|].
    split; [eapply points_keeps; [exact K2| |exact P1]; eapply renv_body; [right; exact E|reflexivity]|].
    eapply Forall_impl; [|exact F]. intros [y ps] (k' & pf' & PR' & I). exists k', pf'. split; [assumption|]. eapply intact_keeps; eassumption.
Qed.
End Machine.

(** ** A concrete prover: n = 35, g = 2, h = 3, r = 5, x = 1, the range [0, 2]; b and g are the same cell *)
Definition toy_sha (s : string) : string := s.
Definition toy_coin (d : nat) (l : Z) : option Z := let z := Z.of_nat d + 1 in if z <? l then Some z else None.
Definition toy_squares (z : Z) : option (Z * Z * Z) := if z =? 5 then Some (2, 1, 0) else None.
Definition toy_junk (d : nat) : Z := 777.
(** other goroutines write to every number that lies in the pool *)
Definition scribble (s : rstate) : (nat -> Z) * nat * list nat := (fun a => if existsb (Nat.eqb a) (pool s) then 999 else heap s a, next s, pool s).
Definition quiet (s : rstate) : (nat -> Z) * nat * list nat := (heap s, next s, pool s).
Definition toy_cells : list Z := [35; 2; 3; 5; 0; 2; 128; 1].
Definition toy_env (x : var) : option nat :=
  if String.eqb x "pp.N" then Some 0%nat else if String.eqb x "pp.G" then Some 1%nat else if String.eqb x "pp.H" then Some 2%nat else
  if String.eqb x "r.r" then Some 3%nat else if String.eqb x "r.a" then Some 4%nat else if String.eqb x "r.b" then Some 1%nat else   (* b is the same cell as g *)
  if String.eqb x "r.sp" then Some 6%nat else if String.eqb x "x" then Some 7%nat else None.
Definition toy_state : rstate := {| heap := fun a => nth a toy_cells 555; next := 10; pool := [8; 9]%nat; mine := [0; 1; 2; 3; 4; 5; 6; 7]%nat; renv := toy_env;
  rdraws := 0; rgets := 0; routs := []; tick := 0; rdefers := [] |}.
Notation toy_exec := (PoolLang.exec (interp toy_sha) toy_coin toy_squares (hash_list toy_sha) toy_junk (fun _ => 0%nat)).

Lemma scribble_ok : respectful scribble.
Proof.
  intros s [[P1 P2] [M1 M2]]. unfold scribble. split; [lia|]. split; [assumption|]. split.
  - intros a Ha. split; [now apply P2|]. intros Hm. now apply (M2 a).
  - intros a Ha. destruct (existsb (Nat.eqb a) (pool s)) eqn:E; [|reflexivity]. apply existsb_exists in E. destruct E as (b & Hb & E). apply Nat.eqb_eq in E. subst b. exfalso. now apply (M2 a).
Qed.
Lemma toy_fair : fair toy_coin.
Proof. intros d l z H. unfold toy_coin in H. destruct (Z.ltb_spec (Z.of_nat d + 1) l); [|discriminate]. injection H as <-. lia. Qed.
Lemma toy_wf : wf toy_state.
Proof.
  split; cbn.
  - split; [repeat constructor; cbn; intuition discriminate|]. intros a H. intuition lia.
  - split; [repeat constructor; cbn; intuition discriminate|]. intros a H. intuition lia.
  - reflexivity.
Qed.
Ltac pointers := repeat (constructor; [eexists; split; [reflexivity|]; split; [cbn; tauto|reflexivity]|]); constructor.
Definition done (r : rres) : bool := match r with RDone _ => true | _ => false end.
(** after the numbers of r are used up for one proof, the prover proves again, with scribbling in the pool *)
Example C88_case : exists l S', session toy_sha toy_coin toy_squares toy_junk (fun _ => 0%nat) scribble aop_prove_body
    (map fst (aop_object 35 2 3 5 128)) aop_fields toy_state l S' /\ List.length l = 2%nat /\
  points toy_state (aop_object 35 2 3 5 128).
Proof.
  destruct (toy_exec scribble (IFrame aop_prove_body) toy_state) as [S1|S1|] eqn:E1; [|apply (f_equal done) in E1; vm_compute in E1; discriminate E1..].
  assert (X : match toy_exec scribble (IFrame aop_prove_body) toy_state with RDone S1 => done (toy_exec scribble (IFrame aop_prove_body) S1) | _ => false end = true) by (vm_compute; reflexivity).
  rewrite E1 in X. destruct (toy_exec scribble (IFrame aop_prove_body) S1) as [S2|S2|] eqn:E2; try discriminate X.
  assert (P0 : points toy_state (aop_object 35 2 3 5 128)) by pointers.
  assert (H0 : holds toy_state "x" 1) by (eexists; split; [reflexivity|]; split; [cbn; tauto|reflexivity]).
  assert (H1 : holds S1 "x" 1).
  { pose proof (C88_aop_call toy_sha toy_coin toy_squares toy_junk (fun _ => 0%nat) scribble scribble_ok toy_state 35 2 3 5 128 1 toy_wf P0 H0) as C.
    rewrite E1 in C. destruct C as (k & C & pf & _ & _ & _ & _ & _ & _ & K).
    eapply holds_keeps; [exact K| |exact H0]. eapply (renv_body toy_sha toy_coin toy_squares toy_junk (fun _ => 0%nat) scribble _ _ _ ["x"]); [left; exact E1|reflexivity|now left]. }
  eexists _, S2. split; [|split; [|exact P0]].
  - eapply session_done; [|exact H1|exact E2]. eapply session_done; [|exact H0|exact E1]. constructor.
  - reflexivity.
Qed.
(** the sixth draw fails *)
Example C88_case_err : exists S', PoolLang.exec (interp toy_sha) (fun d l => if Nat.eqb d 5 then None else toy_coin d l) toy_squares (hash_list toy_sha) toy_junk (fun _ => 0%nat) scribble
  (IFrame aop_prove_body) toy_state = RErr S'.
Proof.
  destruct (PoolLang.exec _ _ _ _ _ _ _ _ _) as [S1|S1|] eqn:E; [|eauto|]; apply (f_equal (fun r => match r with RErr _ => true | _ => false end)) in E; vm_compute in E; discriminate E.
Qed.
Example C89_case : exists l S', session toy_sha toy_coin toy_squares toy_junk (fun _ => 0%nat) quiet rp_prove_body
    (map fst (rp_object 35 2 3 5 0 2 128)) rp_fields toy_state l S' /\ List.length l = 2%nat /\
  points toy_state (rp_object 35 2 3 5 0 2 128).
Proof.
  destruct (toy_exec quiet (IFrame rp_prove_body) toy_state) as [S1|S1|] eqn:E1; [|apply (f_equal done) in E1; vm_compute in E1; discriminate E1..].
  assert (X : match toy_exec quiet (IFrame rp_prove_body) toy_state with RDone S1 => done (toy_exec quiet (IFrame rp_prove_body) S1) | _ => false end = true) by (vm_compute; reflexivity).
  rewrite E1 in X. destruct (toy_exec quiet (IFrame rp_prove_body) S1) as [S2|S2|] eqn:E2; try discriminate X.
  assert (P0 : points toy_state (rp_object 35 2 3 5 0 2 128)) by pointers.
  assert (H0 : holds toy_state "x" 1) by (eexists; split; [reflexivity|]; split; [cbn; tauto|reflexivity]).
  assert (H1 : holds S1 "x" 1).
  { pose proof (C89_rp_call toy_sha toy_coin toy_squares toy_junk (fun _ => 0%nat) quiet (fun s => eq_refl) toy_fair toy_state 35 2 3 5 0 2 128 1 toy_wf P0 H0) as C.
    rewrite E1 in C. destruct C as (k & pf & _ & _ & _ & _ & _ & _ & K).
    eapply holds_keeps; [exact K| |exact H0]. eapply (renv_body toy_sha toy_coin toy_squares toy_junk (fun _ => 0%nat) quiet _ _ _ ["x"]); [left; exact E1|reflexivity|now left]. }
  eexists _, S2. split; [|split; [|exact P0]].
  - eapply session_done; [|exact H1|exact E2]. eapply session_done; [|exact H0|exact E1]. constructor.
  - reflexivity.
Qed.
(** with other goroutines the range prover puts out bytes that belong to no proof *)
Definition toy_rp_coins : rp_coins := {| rc_r3 := (1, 2, 3); rc_m4 := (4, 5, 6, 7); rc_s4 := (8, 9, 10, 11); rc_sigma := 12 |}.
Theorem C89_rp_concurrent_refuted : exists sha coin squares junk pick env S n g h r a b sp x S' k pf,
  respectful env /\ fair coin /\ wf S /\ points S (rp_object n g h r a b sp) /\ holds S "x" x /\
  PoolLang.exec (interp sha) coin squares (hash_list sha) junk pick env (IFrame rp_prove_body) S = RDone S' /\
  drawn coin (rdraws S) (rp_draws n sp k) /\ RP_Prove sha (ts_of squares) (pp_of n g h) r a b x k = Ret pf /\
  routs S' <> ("commitment", rp_commit pf) :: routs S.
Proof.
  destruct (toy_exec scribble (IFrame rp_prove_body) toy_state) as [S1|S1|] eqn:E1; [|apply (f_equal done) in E1; vm_compute in E1; discriminate E1..].
  destruct (RP_Prove toy_sha (ts_of toy_squares) (pp_of 35 2 3) 5 0 2 1 toy_rp_coins) as [pf| |] eqn:E2; [|vm_compute in E2; discriminate E2..].
  exists toy_sha, toy_coin, toy_squares, toy_junk, (fun _ => 0%nat), scribble, toy_state, 35, 2, 3, 5, 0, 2, 128, 1, S1, toy_rp_coins, pf.
  split; [exact scribble_ok|]. split; [exact toy_fair|]. split; [exact toy_wf|]. split; [pointers|].
  split; [eexists; split; [reflexivity|]; split; [cbn; tauto|reflexivity]|]. split; [exact E1|].
  split; [vm_compute; repeat split|]. split; [exact E2|].
  apply (f_equal (fun r => match r with RDone s => routs s | _ => [] end)) in E1. apply (f_equal (fun r => match r with Ret p => rp_commit p | _ => "" end)) in E2.
  rewrite <- E1, <- E2. vm_compute. discriminate.
Qed.
(** a state with these numbers, each in a cell of its own, and two more in the pool *)
Fixpoint addr_of (ins : list (var * Z)) (i : nat) (x : var) : option nat :=
  match ins with [] => None | (y, _) :: ins => if String.eqb x y then Some i else addr_of ins (S i) x end.
Definition state_of (ins : list (var * Z)) : rstate := {| heap := fun a => nth a (map snd ins) 555; next := 42; pool := [40; 41]%nat; mine := seq 0 (List.length ins);
  renv := addr_of ins 0; rdraws := 0; rgets := 0; routs := []; tick := 0; rdefers := [] |}.
Example C90_case_rp : exists pf S', RP_Prove toy_sha (ts_of toy_squares) (pp_of 35 2 3) 5 0 2 1 toy_rp_coins = Ret pf /\
  wf (state_of (params 35 2 3 ++ rp_proof_at 0 2 pf)) /\ points (state_of (params 35 2 3 ++ rp_proof_at 0 2 pf)) (params 35 2 3 ++ rp_proof_at 0 2 pf) /\
  toy_exec scribble (IFrame rp_verify_body) (state_of (params 35 2 3 ++ rp_proof_at 0 2 pf)) = RDone S' /\ routs S' = [("computed", rp_commit pf)].
Proof.
  destruct (RP_Prove toy_sha (ts_of toy_squares) (pp_of 35 2 3) 5 0 2 1 toy_rp_coins) as [pf| |] eqn:E; [|vm_compute in E; discriminate E..].
  assert (W : wf (state_of (params 35 2 3 ++ rp_proof_at 0 2 pf))).
  { clear. destruct pf as [cc [[c0 c1] c2] cm [[[[z0 z1] z2] z3] [[[t0 t1] t2] t3] t]]. split; cbn; [| |reflexivity];
      (split; [repeat constructor; cbn; intuition discriminate|]; intros a H; intuition lia). }
  assert (P : points (state_of (params 35 2 3 ++ rp_proof_at 0 2 pf)) (params 35 2 3 ++ rp_proof_at 0 2 pf)).
  { clear. destruct pf as [cc [[c0 c1] c2] cm [[[[z0 z1] z2] z3] [[[t0 t1] t2] t3] t]]. cbn [params rp_proof_at app combine vec map seq first3 first4 rp_c rp_commit3 rp_resp rr_Z4 rr_T4 rr_TAU]. pointers. }
  assert (V : match RP_Prove toy_sha (ts_of toy_squares) (pp_of 35 2 3) 5 0 2 1 toy_rp_coins with
              | Ret pf => match toy_exec scribble (IFrame rp_verify_body) (state_of (params 35 2 3 ++ rp_proof_at 0 2 pf)) with
                          | RDone s => match routs s with [(k, b)] => String.eqb k "computed" && String.eqb b (rp_commit pf) | _ => false end | _ => false end
              | _ => false end = true) by (vm_compute; reflexivity).
  rewrite E in V. destruct (toy_exec scribble (IFrame rp_verify_body) (state_of (params 35 2 3 ++ rp_proof_at 0 2 pf))) as [S'|S'|] eqn:EX; try discriminate V.
  exists pf, S'. repeat (split; [first [assumption|reflexivity]|]). destruct (routs S') as [|[k b] [|]]; try discriminate V. apply andb_true_iff in V. destruct V as [V1 V2].
  apply String.eqb_eq in V1, V2. now subst.
Qed.
Definition toy_aop_coins : aop_coins := {| ac_r3 := (1, 2, 3); ac_m3 := (4, 5, 6); ac_s3 := (8, 9, 10); ac_s := 12 |}.
Example C90_case_aop : exists C pf S', AoP_Prove toy_sha (ts_of toy_squares) (pp_of 35 2 3) 5 1 toy_aop_coins = Ret (C, pf) /\
  wf (state_of (params 35 2 3 ++ aop_proof_at C pf)) /\ points (state_of (params 35 2 3 ++ aop_proof_at C pf)) (params 35 2 3 ++ aop_proof_at C pf) /\
  toy_exec scribble (IFrame aop_verify_body) (state_of (params 35 2 3 ++ aop_proof_at C pf)) = RDone S' /\ routs S' = [("computed", ap_commitment pf)].
Proof.
  destruct (AoP_Prove toy_sha (ts_of toy_squares) (pp_of 35 2 3) 5 1 toy_aop_coins) as [[C pf]| |] eqn:E; [|vm_compute in E; discriminate E..].
  assert (W : wf (state_of (params 35 2 3 ++ aop_proof_at C pf))).
  { clear. destruct pf as [[[c0 c1] c2] cm [[[z0 z1] z2] [[t0 t1] t2] t]]. split; cbn; [| |reflexivity];
      (split; [repeat constructor; cbn; intuition discriminate|]; intros a H; intuition lia). }
  assert (P : points (state_of (params 35 2 3 ++ aop_proof_at C pf)) (params 35 2 3 ++ aop_proof_at C pf)).
  { clear. destruct pf as [[[c0 c1] c2] cm [[[z0 z1] z2] [[t0 t1] t2] t]]. cbn [params aop_proof_at app combine vec map seq first3 ap_commit3 ap_response ar_Z3 ar_T3 ar_T]. pointers. }
  assert (V : match AoP_Prove toy_sha (ts_of toy_squares) (pp_of 35 2 3) 5 1 toy_aop_coins with
              | Ret (C, pf) => match toy_exec scribble (IFrame aop_verify_body) (state_of (params 35 2 3 ++ aop_proof_at C pf)) with
                          | RDone s => match routs s with [(k, b)] => String.eqb k "computed" && String.eqb b (ap_commitment pf) | _ => false end | _ => false end
              | _ => false end = true) by (vm_compute; reflexivity).
  rewrite E in V. destruct (toy_exec scribble (IFrame aop_verify_body) (state_of (params 35 2 3 ++ aop_proof_at C pf))) as [S'|S'|] eqn:EX; try discriminate V.
  exists C, pf, S'. repeat (split; [first [assumption|reflexivity]|]). destruct (routs S') as [|[k b] [|]]; try discriminate V. apply andb_true_iff in V. destruct V as [V1 V2].
  apply String.eqb_eq in V1, V2. now subst.
Qed.
Print Assumptions C88_aop_call.
Print Assumptions C88_aop_session.
Print Assumptions C89_rp_call.
Print Assumptions C89_rp_session_partial.
Print Assumptions C89_rp_concurrent_refuted.
Print Assumptions C90_aop_verify.
Print Assumptions C90_rp_verify.
