(** What the reading of each program of PoolPrograms.v gives: the value-level functions of RangeModel.v. *)
From Coq Require Import ZArith Bool String List Lia.
From Verif Require Import GoBig GoBigFacts FSModel PokeModel SquaresModel RangeModel PoolLang PoolLangProofs PoolPrograms PoolWP.
Import ListNotations.
Local Open Scope string_scope.
Local Open Scope Z_scope.

Definition pp_of (n g h : Z) : PublicParameters := {| ppN := n; ppG := g; ppH := h |}.
(** the pointers a prover or verifier was made with; they may be aliases of each other *)
Definition params (n g h : Z) : list (var * Z) := [("pp.G", g); ("pp.H", h); ("pp.N", n)].
Definition aop_object (n g h r sp : Z) : list (var * Z) := params n g h ++ [("r.r", r); ("r.sp", sp)].
Definition rp_object (n g h r a b sp : Z) : list (var * Z) := params n g h ++ [("r.r", r); ("r.a", a); ("r.b", b); ("r.sp", sp)].
Definition points (S : rstate) (l : list (var * Z)) : Prop := Forall (fun p => holds S (fst p) (snd p)) l.
Definition first3 (z : Int3) : list Z := let '(a, b, c) := z in [a; b; c].
Definition first4 (z : Int4) : list Z := let '(a, b, c, d) := z in [a; b; c; d].
Definition ts_of (squares : Z -> option (Z * Z * Z)) (z : Z) : outcome Int3 := match squares z with Some t => Ret t | None => Panic end.

(** the numbers a call draws: the j-th coin is below its limit, in the order of the code *)
Fixpoint drawn (coin : nat -> Z -> option Z) (d : nat) (l : list (Z * Z)) : Prop :=
  match l with [] => True | (lim, z) :: l => coin d (lim + 1) = Some z /\ drawn coin (S d) l end.
Definition aop_draws (n sp : Z) (k : aop_coins) : list (Z * Z) :=
  map (pair n) (first3 (ac_r3 k)) ++ map (pair (2 ^ (2 * sp + 4096))) (first3 (ac_m3 k)) ++
  map (pair (4 ^ sp * n)) (first3 (ac_s3 k)) ++ [(4 ^ sp * n * 2 ^ 2048, ac_s k)].
Definition rp_draws (n sp : Z) (k : rp_coins) : list (Z * Z) :=
  map (pair n) (first3 (rc_r3 k)) ++ map (pair (2 ^ (2 * sp + 4096))) (first4 (rc_m4 k)) ++
  map (pair (4 ^ sp * n)) (first4 (rc_s4 k)) ++ [(4 ^ sp * n * 2 ^ 4096, rc_sigma k)].

(** where the prover leaves its numbers *)
Definition aop_fields : list var := "r.C" :: vec "cx" 3 ++ vec "Z3" 3 ++ vec "T3" 3 ++ ["T"].
Definition aop_numbers (C : Z) (pf : aop_proof) : list Z :=
  C :: first3 (ap_commit3 pf) ++ first3 (ar_Z3 (ap_response pf)) ++ first3 (ar_T3 (ap_response pf)) ++ [ar_T (ap_response pf)].
Definition rp_fields : list var := "r.c" :: vec "cx" 3 ++ vec "Z4" 4 ++ vec "T4" 4 ++ ["TAU"].
Definition rp_numbers (pf : rp_proof) : list Z :=
  rp_c pf :: first3 (rp_commit3 pf) ++ first4 (rr_Z4 (rp_resp pf)) ++ first4 (rr_T4 (rp_resp pf)) ++ [rr_TAU (rp_resp pf)].

(** *** The readings *)
Definition val (A : astate) (x : var) : option Z :=
  match look (aenv A) x with ALoc i => match nth_error (store A) i with Some (z, Live) => Some z | _ => None end | _ => None end.

Section Readings.
Variable sha : string -> string.
Variable coin : nat -> Z -> option Z.
Variable squares : Z -> option (Z * Z * Z).
Variable junk : nat -> Z.
Notation aexec := (PoolLang.aexec (interp sha) coin squares (hash_list sha) junk).

Lemma shl1 : forall a, Z.shiftl a 1 = 2 * a.
Proof. intros a. rewrite Z.shiftl_mul_pow2 by lia. change (2 ^ 1) with 2. lia. Qed.
Lemma shl2 : forall a, Z.shiftl a 2 = 4 * a.
Proof. intros a. rewrite Z.shiftl_mul_pow2 by lia. change (2 ^ 2) with 4. lia. Qed.
Lemma shlk : forall a k, Z.shiftl a (Zpos k) = a * 2 ^ Zpos k.
Proof. intros a k. now rewrite Z.shiftl_mul_pow2 by lia. Qed.
Lemma exp_nonneg : forall x y m, 0 <= y -> big_exp x y m <> None.
Proof. intros x y m H. unfold big_exp. destruct (m =? 0); [discriminate|]. destruct (Z.leb_spec 0 y); [discriminate|lia]. Qed.

Ltac split_all := repeat match goal with |- _ /\ _ => split | |- forall _, _ => intro end.
Ltac same_coins := repeat match goal with
  | H : coin ?a ?b = Some ?u, H' : coin ?a ?b = Some ?v |- _ => rewrite H in H'; injection H' as H'; subst
  | H : coin ?a ?b = Some ?u, H' : coin ?a ?b = None |- _ => rewrite H in H'; discriminate H'
  end.
Ltac known := repeat (match goal with
  | H : squares ?a = _ |- context [squares ?a] => rewrite H
  | H : big_exp ?a ?b ?c = _ |- context [big_exp ?a ?b ?c] => rewrite H
  | H : mod_inverse ?a ?b = _ |- context [mod_inverse ?a ?b] => rewrite H
  | H : go_mod ?a ?b = _ |- context [go_mod ?a ?b] => rewrite H
  end; cbv beta iota zeta delta [bind deref exp_recv]).

(** ** Argument of positivity *)
Definition aop_done (n g h r sp x : Z) (d : nat) (outs : list (string * string)) (vals : list (option Z)) (outs' : list (string * string)) : Prop :=
  exists k C pf, drawn coin d (aop_draws n sp k) /\ squares (4 * x + 1) <> None /\
      AoP_Prove sha (ts_of squares) (pp_of n g h) r x k = Ret (C, pf) /\
      vals = map Some (aop_numbers C pf) /\ outs' = ("commitment", ap_commitment pf) :: outs.
Definition aop_failed (n sp x : Z) (d : nat) : Prop := forall k, ~ (drawn coin d (aop_draws n sp k) /\ squares (4 * x + 1) <> None).
Definition aop_crashed (n g h r sp x : Z) (d : nat) : Prop :=
  forall k, drawn coin d (aop_draws n sp k) -> squares (4 * x + 1) <> None -> AoP_Prove sha (ts_of squares) (pp_of n g h) r x k = Panic.
Ltac open_aop := cbn [drawn aop_draws app map first3 ac_r3 ac_m3 ac_s3 ac_s fst snd] in *.
Lemma aop_reading : forall n g h r sp x d gt outs,
  match aexec true (IFrame aop_prove_body) (start (aop_object n g h r sp ++ [("x", x)]) d gt outs) with
  | ADone A => aop_done n g h r sp x d outs (map (val A) aop_fields) (aouts A)
  | AErr A => aop_failed n sp x d
  | ACrash => aop_crashed n g h r sp x d
  | AStuck => False
  end.
Proof.
  intros. pattern (aexec true (IFrame aop_prove_body) (start (aop_object n g h r sp ++ [("x", x)]) d gt outs)).
  apply wp_ok. lazy -[big_exp go_mod mod_inverse Z.mul Z.add Z.sub Z.opp Z.shiftl Z.pow set_bytes written dec big_bytes statement_string hash_list aop_done aop_failed aop_crashed].
  split_all; rewrite ?shl1, ?shl2, ?shlk in *;
    lazymatch goal with
    | |- aop_crashed _ _ _ _ _ _ _ =>
        intros [[[r0 r1] r2] [[m0 m1] m2] [[s0 s1] s2] s3] D SQ; open_aop; repeat match goal with X : _ /\ _ |- _ => destruct X end; same_coins;
        first [match goal with X : squares _ = Some _ |- _ => idtac end | destruct (squares (4 * x + 1)) as [[[? ?] ?]|] eqn:?; [|contradiction]];
        cbv beta iota zeta delta [bind AoP_Prove calC commit2 commitFromTS each3 fold3 mul_exp ts_of pp_of ppN ppG ppH ac_r3 ac_m3 ac_s3 ac_s]; rewrite ?shl2; known; reflexivity
    | |- aop_failed _ _ _ _ =>
        intros [[[r0 r1] r2] [[m0 m1] m2] [[s0 s1] s2] s3] [D SQ]; open_aop; repeat match goal with X : _ /\ _ |- _ => destruct X end; same_coins; contradiction
    | _ => idtac
    end.
  - unfold aop_done. eexists {| ac_r3 := (_, _, _); ac_m3 := (_, _, _); ac_s3 := (_, _, _); ac_s := _ |}, _, _. split; [|split; [|split]].
    + open_aop. repeat split; eassumption.
    + rewrite H2. discriminate.
    + cbv beta iota zeta delta [bind AoP_Prove calC commit2 commitFromTS each3 fold3 mul_exp ts_of pp_of ppN ppG ppH ac_r3 ac_m3 ac_s3 ac_s aop_challenge]; rewrite ?shl2; known. rewrite H39. reflexivity.
    + split; reflexivity.
Qed.

(** ** Range proof *)
Definition rp_target (a b x : Z) : Z := 4 * ((b - x) * (x - a)) + 1.
Definition rp_done (n g h r a b sp x : Z) (d : nat) (outs : list (string * string)) (vals : list (option Z)) (outs' : list (string * string)) : Prop :=
  exists k pf, drawn coin d (rp_draws n sp k) /\ squares (rp_target a b x) <> None /\
      RP_Prove sha (ts_of squares) (pp_of n g h) r a b x k = Ret pf /\
      vals = map Some (rp_numbers pf) /\ outs' = ("commitment", rp_commit pf) :: outs.
Definition rp_failed (n a b sp x : Z) (d : nat) : Prop := forall k, ~ (drawn coin d (rp_draws n sp k) /\ squares (rp_target a b x) <> None).
Definition rp_crashed (n g h r a b sp x : Z) (d : nat) : Prop :=
  forall k, drawn coin d (rp_draws n sp k) -> squares (rp_target a b x) <> None -> RP_Prove sha (ts_of squares) (pp_of n g h) r a b x k = Panic.
(** rand.Int gives numbers that are not negative *)
Definition fair : Prop := forall d l z, coin d l = Some z -> 0 <= z < l.
Ltac open_rp := cbn [drawn rp_draws app map first3 first4 rc_r3 rc_m4 rc_s4 rc_sigma fst snd] in *.
Ltac rp_unfold := cbv beta iota zeta delta [bind RP_Prove RangeModel.calC RangeModel.calCa RangeModel.secondPartH commit2 commitFromTS each3 each4 fold3 mul_exp ts_of pp_of ppN ppG ppH rc_r3 rc_m4 rc_s4 rc_sigma rp_challenge].
Lemma rp_reading : fair -> forall n g h r a b sp x d gt outs,
  match aexec false (IFrame rp_prove_body) (start (rp_object n g h r a b sp ++ [("x", x)]) d gt outs) with
  | ADone A => rp_done n g h r a b sp x d outs (map (val A) rp_fields) (aouts A)
  | AErr A => rp_failed n a b sp x d
  | ACrash => rp_crashed n g h r a b sp x d
  | AStuck => False
  end.
Proof.
  intros F n g h r a b sp x d gt outs. pattern (aexec false (IFrame rp_prove_body) (start (rp_object n g h r a b sp ++ [("x", x)]) d gt outs)).
  apply wp_ok. lazy -[big_exp go_mod mod_inverse Z.mul Z.add Z.sub Z.opp Z.shiftl Z.pow set_bytes written dec big_bytes statement_string hash_list rp_done rp_failed rp_crashed].
  split_all; rewrite ?shl1, ?shl2, ?shlk in *;
    try match goal with X : big_exp _ 4 _ = None |- _ => exfalso; revert X; apply exp_nonneg; lia end;
    try match goal with X : big_exp _ ?y _ = None, Y : coin _ _ = Some ?y |- _ => exfalso; revert X; apply exp_nonneg; apply F in Y; lia end;
    lazymatch goal with
    | |- rp_crashed _ _ _ _ _ _ _ _ _ =>
        intros [[[r0 r1] r2] [[[m0 m1] m2] m3] [[[s0 s1] s2] s3] s4] D SQ; open_rp; repeat match goal with X : _ /\ _ |- _ => destruct X end; same_coins;
        unfold rp_target in *;
        first [match goal with X : squares _ = Some _ |- _ => idtac end | destruct (squares (4 * ((b - x) * (x - a)) + 1)) as [[[? ?] ?]|] eqn:?; [|contradiction]];
        rp_unfold; rewrite ?shl2; known; reflexivity
    | |- rp_failed _ _ _ _ _ _ =>
        intros [[[r0 r1] r2] [[[m0 m1] m2] m3] [[[s0 s1] s2] s3] s4] [D SQ]; open_rp; repeat match goal with X : _ /\ _ |- _ => destruct X end; same_coins; contradiction
    | _ => idtac
    end.
  unfold rp_done. eexists {| rc_r3 := (_, _, _); rc_m4 := (_, _, _, _); rc_s4 := (_, _, _, _); rc_sigma := _ |}, _. split; [|split; [|split]].
  - open_rp. repeat split; eassumption.
  - unfold rp_target. match goal with X : squares _ = Some _ |- _ => rewrite X end. discriminate.
  - rp_unfold. rewrite ?shl2. known. match goal with X : set_bytes _ = _ |- _ => rewrite X end. reflexivity.
  - split; reflexivity.
Qed.

(** ** Verifiers *)
Definition aop_proof_at (c : Z) (pf : aop_proof) : list (var * Z) :=
  ("r.c", c) :: combine (vec "proof.commit3" 3) (first3 (ap_commit3 pf)) ++ combine (vec "Z3" 3) (first3 (ar_Z3 (ap_response pf))) ++
  combine (vec "T3" 3) (first3 (ar_T3 (ap_response pf))) ++ [("T", ar_T (ap_response pf))].
Definition rp_proof_at (a b : Z) (pf : rp_proof) : list (var * Z) :=
  [("r.a", a); ("r.b", b); ("proof.c", rp_c pf)] ++ combine (vec "proof.commit3" 3) (first3 (rp_commit3 pf)) ++ combine (vec "Z4" 4) (first4 (rr_Z4 (rp_resp pf))) ++
  combine (vec "T4" 4) (first4 (rr_T4 (rp_resp pf))) ++ [("TAU", rr_TAU (rp_resp pf))].
Definition aop_verified (n g h c : Z) (pf : aop_proof) (j : Z) (outs outs' : list (string * string)) : Prop :=
  exists bytes, outs' = ("computed", bytes) :: outs /\ fst (AoP_Verify sha (NewZKAoPVerifier (pp_of n g h) c) pf j) = Ret (bytes =? ap_commitment pf)%string.
Definition rp_verified (n g h a b : Z) (pf : rp_proof) (outs outs' : list (string * string)) : Prop :=
  exists bytes, outs' = ("computed", bytes) :: outs /\ fst (RP_Verify sha (NewRPVerifier (pp_of n g h) a b) pf) = Ret (bytes =? rp_commit pf)%string.
Definition aop_vcrash (n g h c : Z) (pf : aop_proof) (j : Z) : Prop := fst (AoP_Verify sha (NewZKAoPVerifier (pp_of n g h) c) pf j) = Panic.
Definition rp_vcrash (n g h a b : Z) (pf : rp_proof) : Prop := fst (RP_Verify sha (NewRPVerifier (pp_of n g h) a b) pf) = Panic.

Lemma aop_vreading : forall n g h c pf d gt outs,
  match aexec true (IFrame aop_verify_body) (start (params n g h ++ aop_proof_at c pf) d gt outs) with
  | ADone A => aop_verified n g h c pf (junk (3 + gt)) outs (aouts A)
  | AErr A => False
  | ACrash => aop_vcrash n g h c pf (junk (3 + gt))
  | AStuck => False
  end.
Proof.
  intros n g h c [[[c0 c1] c2] cm [[[z0 z1] z2] [[t0 t1] t2] t]] d gt outs. pattern (aexec true (IFrame aop_verify_body) (start (params n g h ++ aop_proof_at c {| ap_commit3 := (c0, c1, c2); ap_commitment := cm; ap_response := {| ar_Z3 := (z0, z1, z2); ar_T3 := (t0, t1, t2); ar_T := t |} |}) d gt outs)).
  apply wp_ok. lazy -[big_exp go_mod mod_inverse Z.mul Z.add Z.sub Z.opp Z.shiftl Z.pow set_bytes written dec big_bytes statement_string hash_list aop_verified aop_vcrash].
  split_all;
    lazymatch goal with
    | |- aop_vcrash _ _ _ _ _ _ => unfold aop_vcrash
    | |- aop_verified _ _ _ _ _ _ _ _ => eexists; split; [reflexivity|]
    end; cbv beta iota zeta delta [fst AoP_Verify av_pp av_c av_c3 av_commitment NewZKAoPVerifier ap_commit3 ap_commitment ap_response ar_Z3 ar_T3 ar_T bind deref AoP_VerifyResponse pp_of ppN ppG ppH fold3 mul_exp];
    match goal with X : set_bytes _ = ?e |- context [aop_challenge ?s ?p ?q] => change (aop_challenge s p q = e) in X; rewrite X end;
    known; reflexivity.
Qed.
Lemma rp_vreading : forall n g h a b pf d gt outs,
  match aexec true (IFrame rp_verify_body) (start (params n g h ++ rp_proof_at a b pf) d gt outs) with
  | ADone A => rp_verified n g h a b pf outs (aouts A)
  | AErr A => False
  | ACrash => rp_vcrash n g h a b pf
  | AStuck => False
  end.
Proof.
  intros n g h a b [cc [[c0 c1] c2] cm [[[[z0 z1] z2] z3] [[[t0 t1] t2] t3] t]] d gt outs. pattern (aexec true (IFrame rp_verify_body) (start (params n g h ++ rp_proof_at a b {| rp_c := cc; rp_commit3 := (c0, c1, c2); rp_commit := cm; rp_resp := {| rr_Z4 := (z0, z1, z2, z3); rr_T4 := (t0, t1, t2, t3); rr_TAU := t |} |}) d gt outs)).
  apply wp_ok. lazy -[big_exp go_mod mod_inverse Z.mul Z.add Z.sub Z.opp Z.shiftl Z.pow set_bytes written dec big_bytes statement_string hash_list rp_verified rp_vcrash].
  split_all;
    try match goal with X : big_exp _ 4 _ = None |- _ => exfalso; revert X; apply exp_nonneg; lia end;
    lazymatch goal with
    | |- rp_vcrash _ _ _ _ _ _ => unfold rp_vcrash
    | |- rp_verified _ _ _ _ _ _ _ _ => eexists; split; [reflexivity|]
    end; cbv beta iota zeta delta [fst RP_Verify rv_pp rv_a rv_b rv_c0 rv_c3 rv_ca rv_commitment NewRPVerifier set_c0 set_rest rp_c rp_commit3 rp_commit rp_resp rr_Z4 rr_T4 rr_TAU bind deref RP_VerifyResponse pp_of ppN ppG ppH fold3 mul_exp];
    known;
    try match goal with X : set_bytes _ = ?e |- context [rp_challenge ?s ?p ?u ?v ?q] => change (rp_challenge s p u v q = e) in X; rewrite X end;
    known; reflexivity.
Qed.
End Readings.

