(** The functions of InterleaveNumModel.v satisfy [runs]. *)
From Coq Require Import ZArith Bool List Lia.
From Verif Require Import GoBig Spec AccModel AccFacts AccProofs SliceModel SliceProofs InterleaveModel InterleaveProofs
  InterleaveFuns InterleaveNumModel.
Import ListNotations.
Open Scope nat_scope.

Ltac Zify.zify_post_hook ::= Z.to_euclidean_division_equations.

Lemma Forall2_nth : forall A B (R : A -> B -> Prop) l m i y, Forall2 R l m -> nth_error m i = Some y ->
  exists x, nth_error l i = Some x /\ R x y.
Proof.
  intros A B R l m i y F. revert i. induction F as [|a b l m Hab F IH]; intros [|i] E; cbn [nth_error] in *; try discriminate.
  - injection E as ->. eauto.
  - now apply IH.
Qed.
Lemma Forall2_length : forall A B (R : A -> B -> Prop) l m, Forall2 R l m -> length l = length m.
Proof. intros A B R l m F. induction F; cbn [length]; congruence. Qed.
Lemma Forall2_impl : forall A B (R R' : A -> B -> Prop) l m, (forall a b, R a b -> R' a b) -> Forall2 R l m -> Forall2 R' l m.
Proof. intros A B R R' l m H F. induction F; constructor; auto. Qed.
Lemma Forall2_firstn : forall A B (R : A -> B -> Prop) n l m, Forall2 R l m -> Forall2 R (firstn n l) (firstn n m).
Proof. intros A B R n l m F. revert n. induction F; intros [|n]; cbn [firstn]; constructor; auto. Qed.
Lemma Forall2_skipn : forall A B (R : A -> B -> Prop) n l m, Forall2 R l m -> Forall2 R (skipn n l) (skipn n m).
Proof. intros A B R n l m F. revert n. induction F; intros [|n]; cbn [skipn]; try constructor; auto. Qed.
Lemma Forall2_slice : forall A B (R : A -> B -> Prop) l m i j, Forall2 R l m -> Forall2 R (slice l i j) (slice m i j).
Proof. intros A B R l m i j F. unfold slice. now apply Forall2_firstn, Forall2_skipn. Qed.
Lemma map_slice : forall A B (f : A -> B) l i j, map f (slice l i j) = slice (map f l) i j.
Proof. intros A B f l i j. unfold slice. rewrite <- firstn_map. f_equal. revert l. induction i; intros [|x l]; cbn [skipn map]; auto. Qed.

Section Funs.
Variable H0 : heap.
Variable P : nat -> nat -> Prop.
Notation runs := (runs H0 P).

(** number [a] may be read and is [v] *)
Definition num (O : owned) (a : nat) (v : Z) : Prop := rd H0 P O a 0 (Some v).
(** a number everybody may read *)
Definition common (a : nat) (v : Z) : Prop := P a 0 /\ cell_at H0 a 0 = Some (Some v).
(** a slice of such numbers *)
Definition elements (s : hdr) (vs : list Z) : Prop :=
  exists ps, shared H0 P s (map Z.of_nat ps) /\ Forall2 common ps vs.
(** [a] is new, is the number [v], and nothing that was owned before has changed *)
Definition made (O : owned) (v : Z) (a : nat) (O' : owned) : Prop :=
  O a = None /\ O' a = Some [Some v] /\ within O O'.

Lemma num_within : forall O O' a v, within O O' -> num O a v -> num O' a v.
Proof. intros O O' a v W [H|(c & E & H)]; [now left|right]. exists c. split; [now apply W|exact H]. Qed.
Lemma common_num : forall O a v, common a v -> num O a v.
Proof. intros O a v H. now left. Qed.
Lemma owned_num : forall O a v, O a = Some [Some v] -> num O a v.
Proof. intros O a v E. right. exists [Some v]. now split. Qed.
Lemma made_num : forall O v a O', made O v a O' -> num O' a v.
Proof. intros O v a O' (_ & E & _). now apply owned_num. Qed.
Lemma made_within : forall O v a O', made O v a O' -> within O O'.
Proof. now intros O v a O' (_ & _ & W). Qed.
Lemma made_kept : forall O v a O' b c, made O v a O' -> O b = Some c -> O' b = Some c.
Proof. intros O v a O' b c (_ & _ & W). apply W. Qed.
Lemma made_owned : forall O v a O', made O v a O' -> O' a = Some [Some v].
Proof. now intros O v a O' (_ & E & _). Qed.

Lemma elements_length : forall s vs, elements s vs -> h_len s = length vs.
Proof. intros s vs (ps & (L & _) & F). rewrite L, map_length. eapply Forall2_length, F. Qed.
Lemma elements_sub : forall s vs i j, elements s vs -> i <= j <= length vs -> elements (sub s i j) (slice vs i j).
Proof.
  intros s vs i j (ps & H & F) Hij. exists (slice ps i j). split; [|now apply Forall2_slice].
  rewrite map_slice. apply shared_sub; [exact H|]. rewrite map_length. now rewrite (Forall2_length _ _ _ _ _ F).
Qed.
Lemma elements_reslice : forall s vs i j, elements s vs -> i <= j <= length vs -> preslice s i j = PRet (sub s i j).
Proof.
  intros s vs i j (ps & H & F) Hij. eapply preslice_sub; [exact H|]. rewrite map_length. now rewrite (Forall2_length _ _ _ _ _ F).
Qed.
Lemma elements_from : forall s vs i, elements s vs -> i <= length vs -> pfrom s i = PRet (sub s i (length vs)).
Proof. intros s vs i H Hi. unfold pfrom. rewrite (elements_length s vs H). now apply (elements_reslice s vs). Qed.

(** ** steps *)
Lemma runs_val : forall A O a v (f : Z -> prog A) (Q : A -> owned -> Prop), num O a v ->
  runs (f v) O Q -> runs (pbind (pval a) f) O Q.
Proof. intros A O a v f Q R H. unfold pval. cbn [pbind InterleaveProofs.runs]. exists (Some v). split; [exact R|exact H]. Qed.
Lemma runs_new : forall O v, runs (pnew v) O (made O v).
Proof.
  intros O v. unfold pnew. cbn [InterleaveProofs.runs]. intros a Ea. exists (repeat None 1). split; [apply set_same|].
  split; [cbn; lia|]. split; [exact Ea|]. split; [apply set_same|]. intros b c Eb.
  rewrite !set_other by congruence. exact Eb.
Qed.
Lemma runs_made : forall A B (p : prog B) O (M : B -> owned -> Prop) (f : B -> prog A) (Q : A -> owned -> Prop), runs p O M ->
  (forall a O', M a O' -> runs (f a) O' Q) -> runs (pbind p f) O Q.
Proof. intros A B p O M f Q H G. apply runs_bind. eapply runs_mono; [exact H|exact G]. Qed.
Lemma runs_set : forall A O a x v (f : unit -> prog A) (Q : A -> owned -> Prop), O a = Some [Some x] ->
  (forall O', O' a = Some [Some v] -> (forall b, b <> a -> O' b = O b) -> runs (f tt) O' Q) ->
  runs (pbind (pset a v) f) O Q.
Proof.
  intros A O a x v f Q E H. unfold pset. cbn [pbind InterleaveProofs.runs]. exists [Some x]. split; [exact E|].
  split; [cbn; lia|]. apply H; [apply set_same|]. intros b Hb. now apply set_other.
Qed.
Lemma runs_mul : forall O a b x y, num O a x -> num O b y -> runs (pmul a b) O (made O (x * y)).
Proof. intros O a b x y Ha Hb. unfold pmul. eapply runs_val; [exact Ha|]. eapply runs_val; [exact Hb|]. apply runs_new. Qed.
Lemma runs_elem : forall A O s vs i v (f : nat -> prog A) (Q : A -> owned -> Prop), elements s vs -> nth_error vs i = Some v ->
  (forall p, common p v -> runs (f p) O Q) -> runs (pbind (pelem s i) f) O Q.
Proof.
  intros A O s vs i v f Q (ps & H & F) E G. destruct (Forall2_nth _ _ _ _ _ _ _ F E) as (p & Ep & C).
  unfold pelem. apply runs_bind. eapply runs_getz; [apply shared_readable, H|rewrite nth_error_map, Ep; reflexivity|].
  cbn [InterleaveProofs.runs]. rewrite Nat2Z.id. now apply G.
Qed.

(** ** products *)
Lemma runs_loop : forall s vs, elements s vs -> forall k i acc ret O (Q : unit -> owned -> Prop), i + k = length vs ->
  O ret = Some [Some acc] ->
  (forall O', O' ret = Some [Some (fold_left Z.mul (skipn i vs) acc)] ->
     (forall b c, b <> ret -> O b = Some c -> O' b = Some c) -> Q tt O') ->
  runs (mul_loop_n ret s i k) O Q.
Proof.
  intros s vs H. induction k as [|k IH]; intros i acc ret O Q Hk E HQ; cbn [mul_loop_n].
  - rewrite skipn_all2 in HQ by lia. apply HQ; [exact E|auto].
  - destruct (nth_error vs i) as [v|] eqn:Ev; [|apply nth_error_None in Ev; lia].
    eapply runs_elem; [exact H|exact Ev|]. intros p Cp.
    eapply runs_made; [apply runs_mul; [apply owned_num, E|apply common_num, Cp]|]. intros t O1 M1.
    eapply runs_val; [eapply made_num, M1|]. destruct M1 as (N1 & E1 & W1).
    eapply runs_set; [apply W1, E|]. intros O2 E2 K2.
    eapply IH; [lia|exact E2|]. intros O3 E3 K3. apply HQ.
    + rewrite E3. do 3 f_equal. replace (skipn i vs) with (v :: skipn (S i) vs); [reflexivity|].
      clear - Ev. revert vs Ev. induction i as [|i IHi]; intros [|x vs] Ev; try discriminate.
      * cbn in *. congruence.
      * cbn [nth_error] in Ev. cbn [skipn]. apply IHi in Ev. cbn [skipn] in Ev. exact Ev.
    + intros b c Hb Eb. apply K3; [exact Hb|]. rewrite K2 by exact Hb. now apply W1.
Qed.
Lemma runs_product_n : forall f O s vs, elements s vs -> length vs <= f -> runs (set_product_n f s) O (made O (product vs)).
Proof.
  assert (B : forall O s vs ret O0, elements s vs -> made O0 0 ret O ->
    runs (pdo _ <- pset ret 1; pdo _ <- mul_loop_n ret s 0 (h_len s); PRet ret) O (made O0 (product vs))).
  { intros O s vs ret O0 H (N0 & E0 & W0). eapply runs_set; [exact E0|]. intros O1 E1 K1. apply runs_bind.
    eapply runs_loop; [exact H|cbn; now apply elements_length|exact E1|]. cbn [skipn]. intros O2 E2 K2. cbn [InterleaveProofs.runs].
    change (fold_left Z.mul vs 1%Z) with (SetProduct vs) in E2. rewrite SetProduct_spec in E2.
    split; [exact N0|]. split; [exact E2|]. intros b c Eb. apply K2; [congruence|]. rewrite K1 by congruence. now apply W0. }
  induction f as [|f IH]; intros O s vs H Hf; pose proof (elements_length s vs H) as Hl; cbn [set_product_n]; cbv zeta;
    (eapply runs_made; [apply runs_new|]; intros ret O1 M1);
    destruct (Nat.leb_spec (h_len s) 2) as [Hs|Hs]; try (now apply B); try lia.
  rewrite !Hl. set (k := length vs) in *. destruct M1 as (N1 & E1 & W1).
  rewrite (elements_reslice s vs) by (auto; lia). cbn [pbind].
  eapply runs_made; [eapply IH; [apply elements_sub; [exact H|lia]|rewrite slice_length; lia]|]. intros q1 O2 M2.
  eapply runs_val; [eapply made_num, M2|]. destruct M2 as (_ & _ & W2).
  eapply runs_made; [apply runs_new|]. intros p1 O3 (_ & E3 & W3).
  rewrite (elements_from s vs) by (auto; lia). cbn [pbind].
  eapply runs_made; [eapply IH; [apply elements_sub; [exact H|lia]|rewrite slice_length; lia]|]. intros q2 O4 M4.
  eapply runs_val; [eapply made_num, M4|]. destruct M4 as (_ & _ & W4).
  eapply runs_made; [apply runs_new|]. intros p2 O5 (_ & E5 & W5).
  eapply runs_made; [apply runs_mul; [apply owned_num; apply W5, W4, E3|apply owned_num, E5]|]. intros t O6 M6.
  eapply runs_val; [eapply made_num, M6|]. destruct M6 as (_ & _ & W6).
  eapply runs_set; [apply W6, W5, W4, W3, W2, E1|]. intros O7 E7 K7. cbn [InterleaveProofs.runs].
  split; [exact N1|]. split.
  - rewrite E7. fold k. rewrite <- product_app, <- slice_app by lia. unfold k. now rewrite slice_full.
  - intros b c Eb. rewrite K7 by congruence. apply W6, W5, W4, W3, W2, W1, Eb.
Qed.
Lemma runs_Product_n : forall O s vs, elements s vs -> runs (SetProductRecursiveFast_n s) O (made O (product vs)).
Proof. intros O s vs H. apply runs_product_n; [exact H|]. rewrite (elements_length s vs H). lia. Qed.

Lemma runs_product_parallel_n : forall f s vs limit O, elements s vs -> length vs <= f ->
  runs (product_parallel_n f s limit) O (fun a O' => O' a = Some [Some (product vs)]).
Proof.
  assert (B : forall s vs O, elements s vs -> runs (SetProductRecursiveFast_n s) O (fun a O' => O' a = Some [Some (product vs)])).
  { intros s vs O H. eapply runs_mono; [apply runs_Product_n, H|]. now intros a O' (_ & E & _). }
  induction f as [|f IH]; intros s vs limit O H Hf; pose proof (elements_length s vs H) as Hl; cbn [product_parallel_n]; cbv zeta;
    destruct (limit =? 0)%Z; try (now apply B); destruct (Nat.leb_spec (h_len s) 2) as [Hs|Hs]; try (now apply B); try lia.
  rewrite !Hl. set (k := length vs) in *. rewrite (elements_reslice s vs) by (auto; lia). cbn [pbind].
  apply runs_bind. eapply runs_par.
  - apply (IH _ (slice vs 0 (k / 2))); [apply elements_sub; [exact H|lia]|rewrite slice_length; lia].
  - rewrite (elements_from s vs) by (auto; lia). cbn [pbind].
    apply (IH _ (slice vs (k / 2) k)); [apply elements_sub; [exact H|lia]|rewrite slice_length; lia].
  - intros a b O1 O2 O' Ea Eb W1 W2 _. apply W1 in Ea. apply W2 in Eb.
    eapply runs_made; [apply runs_new|]. intros ret O3 (_ & E3 & W3).
    eapply runs_val; [apply owned_num, W3, Ea|]. eapply runs_val; [apply owned_num, W3, Eb|].
    eapply runs_set; [exact E3|]. intros O4 E4 _. cbn [InterleaveProofs.runs].
    rewrite E4. rewrite <- product_app, <- slice_app by lia. unfold k. now rewrite slice_full.
Qed.

(** ** slices of numbers *)
(** a slice of different numbers, all owned *)
Definition holds (O : owned) (ps : list nat) (vs : list Z) (r : hdr) : Prop :=
  NoDup (h_arr r :: ps) /\ mine O (map Z.of_nat ps) r /\ Forall2 (fun a v => O a = Some [Some v]) ps vs.
(** such a slice, all of it new *)
Definition gotn (O : owned) (vs : list Z) (r : hdr) (O' : owned) : Prop :=
  exists ps, holds O' ps vs r /\ Forall (fun a => O a = None) (h_arr r :: ps) /\ within O O'.

Lemma holds_within : forall O O' ps vs r, within O O' -> holds O ps vs r -> holds O' ps vs r.
Proof.
  intros O O' ps vs r W (D & M & F). split; [exact D|]. split; [eapply mine_within; eassumption|].
  eapply Forall2_impl; [|exact F]. intros a v E. now apply W.
Qed.
Lemma holds_owned : forall O ps vs r a, holds O ps vs r -> In a (h_arr r :: ps) -> O a <> None.
Proof.
  intros O ps vs r a (_ & (c & E & _) & F) [<-|I]; [congruence|].
  induction F as [|p v ps vs Ep F IH]; [easy|]. destruct I as [<-|I]; [congruence|]. now apply IH.
Qed.
Lemma runs_base : forall A O ps vs r i p v (f : nat -> prog A) (Q : A -> owned -> Prop), holds O ps vs r ->
  nth_error ps i = Some p -> nth_error vs i = Some v ->
  (O p = Some [Some v] -> runs (f p) O Q) -> runs (pbind (pelem r i) f) O Q.
Proof.
  intros A O ps vs r i p v f Q (_ & M & F) Ep Ev G. unfold pelem. apply runs_bind.
  eapply runs_getz; [apply mine_readable, M|rewrite nth_error_map, Ep; reflexivity|].
  cbn [InterleaveProofs.runs]. rewrite Nat2Z.id. apply G.
  destruct (Forall2_nth _ _ _ _ _ _ _ F Ev) as (q & Eq & C). congruence.
Qed.

Lemma runs_news : forall vs O, runs (pnews vs) O (fun ps O' =>
  NoDup ps /\ Forall2 (fun a v => O' a = Some [Some v]) ps vs /\ Forall (fun a => O a = None) ps /\ within O O').
Proof.
  induction vs as [|v vs IH]; intros O; cbn [pnews].
  - cbn [InterleaveProofs.runs]. split; [constructor|]. split; [constructor|]. split; [constructor|apply within_refl].
  - eapply runs_made; [apply runs_new|]. intros a O1 (N1 & E1 & W1).
    eapply runs_made; [apply IH|]. intros ps O2 (D & F & Nn & W2). cbn [InterleaveProofs.runs].
    split; [|split; [|split]].
    + constructor; [|exact D]. intros I. rewrite Forall_forall in Nn. apply Nn in I. congruence.
    + constructor; [now apply W2|exact F].
    + constructor; [exact N1|]. eapply Forall_impl; [|exact Nn]. intros b Eb. now apply (within_none _ _ _ W1).
    + now apply (within_trans _ O1).
Qed.
Lemma runs_vals : forall A O es evs (f : list Z -> prog A) (Q : A -> owned -> Prop), Forall2 (num O) es evs ->
  runs (f evs) O Q -> runs (pbind (pvals es) f) O Q.
Proof.
  intros A O es evs f Q F. revert A f Q. induction F as [|a v es evs Ha F IH]; intros A f Q H; cbn [pvals]; [exact H|].
  apply runs_bind. eapply runs_val; [exact Ha|]. apply IH. exact H.
Qed.
Lemma runs_exps_n : forall O base N bv Nv es evs vs, num O base bv -> num O N Nv -> Forall2 (num O) es evs ->
  multi_exp bv Nv evs = Ret vs -> runs (exps_n base N es) O (gotn O vs).
Proof.
  intros O base N bv Nv es evs vs Hb HN F E. unfold exps_n.
  eapply runs_val; [exact Hb|]. eapply runs_val; [exact HN|]. eapply runs_vals; [exact F|]. rewrite E. cbn [plift pbind].
  eapply runs_made; [apply runs_news|]. intros ps O1 (D & F1 & Nn & W1).
  apply pbind_ret. apply runs_new_array. intros a O2 Na Ea K. cbn [InterleaveProofs.runs].
  assert (W2 : within O1 O2) by (eapply within_new; eassumption).
  assert (Nin : ~ In a ps).
  { intros I. clear - F1 Na I. induction F1 as [|p v ps vs Ep F IH]; [easy|]. destruct I as [<-|I]; [congruence|]. now apply IH. }
  exists ps. cbn [h_arr]. split; [split; [|split]|split].
  - constructor; assumption.
  - exists (map ptr ps). cbn [h_arr h_off h_len h_cap]. rewrite !map_length. split; [exact Ea|].
    split; [lia|]. split; [reflexivity|]. split; [lia|]. intros i v Ei. cbn [Nat.add].
    rewrite nth_error_map in Ei |- *. destruct (nth_error ps i); [|discriminate]. injection Ei as <-. reflexivity.
  - eapply Forall2_impl; [|exact F1]. intros p v Ep. now apply W2.
  - constructor; [now apply (within_none _ _ _ W1)|exact Nn].
  - now apply (within_trans _ O1).
Qed.
Lemma runs_AccumulateNew : forall O g power N gv e n, num O g gv -> num O power e -> num O N n ->
  runs (AccumulateNew_n g power N) O (made O (AccumulateNew gv e n)).
Proof.
  intros O g power N gv e n Hg He Hn. unfold AccumulateNew_n. eapply runs_val; [exact Hg|].
  eapply runs_made; [apply runs_new|]. intros ret O1 (N1 & E1 & W1).
  eapply runs_val; [eapply num_within; [exact W1|exact Hg]|]. eapply runs_val; [eapply num_within; [exact W1|exact He]|].
  eapply runs_val; [eapply num_within; [exact W1|exact Hn]|]. eapply runs_val; [apply owned_num, E1|].
  eapply runs_set; [exact E1|]. intros O2 E2 K2. cbn [InterleaveProofs.runs]. split; [exact N1|]. split; [exact E2|].
  intros b c Eb. rewrite K2 by congruence. now apply W1.
Qed.

Variable grow : nat -> nat -> nat.

Lemma NoDup_app_n : forall (l m : list nat), NoDup l -> NoDup m -> (forall a, In a l -> ~ In a m) -> NoDup (l ++ m).
Proof.
  induction l as [|x l IH]; intros m Hl Hm D; cbn [app]; [exact Hm|]. inversion Hl as [|? ? Nx Hl']; subst. constructor.
  - rewrite in_app_iff. intros [I|I]; [easy|]. apply (D x); [now left|exact I].
  - apply IH; auto. intros a Ia. apply D. now right.
Qed.
(** what is in [r] after the append is what was in [s], and possibly a new array *)
Lemma grown_holds : forall O O' s r xp xs yp ys, holds O xp xs s -> grown s O r O' -> mine O' (map Z.of_nat (xp ++ yp)) r ->
  NoDup yp -> Forall2 (fun a v => O a = Some [Some v]) yp ys -> (forall a, In a (h_arr s :: xp) -> ~ In a yp) ->
  holds O' (xp ++ yp) (xs ++ ys) r.
Proof.
  intros O O' s r xp xs yp ys (D & M & F) [G1 G2] M' Dy Fy Dj. inversion D as [|? ? Ns D']; subst.
  assert (Oo : forall a, In a (xp ++ yp) -> O a <> None).
  { intros a I. apply in_app_iff in I. destruct I as [I|I].
    - clear - F I. induction F as [|p v ps vs Ep F IH]; [easy|]. destruct I as [<-|I]; [congruence|]. now apply IH.
    - clear - Fy I. induction Fy as [|p v ps vs Ep F IH]; [easy|]. destruct I as [<-|I]; [congruence|]. now apply IH. }
  split; [|split; [exact M'|]].
  - constructor.
    + intros I. destruct G2 as [G2|G2]; [|now apply (Oo _ I)]. rewrite G2 in I. apply in_app_iff in I.
      destruct I as [I|I]; [easy|]. apply (Dj (h_arr s)); [now left|exact I].
    + apply NoDup_app_n; auto. intros a Ia. apply Dj. now right.
  - apply Forall2_app.
    + clear - F G1 Ns. induction F as [|p v ps vs Ep F IH]; constructor.
      * apply G1; [|exact Ep]. intros ->. apply Ns. now left.
      * apply IH. intros I. apply Ns. now right.
    + clear - Fy G1 Dj. induction Fy as [|p v ps vs Ep F IH]; constructor.
      * apply G1; [|exact Ep]. intros ->. apply (Dj (h_arr s)); now left.
      * apply IH. intros a Ia I. apply (Dj a Ia). now right.
Qed.
Lemma runs_append_n : forall A O s t xp xs yp ys (f : hdr -> prog A) (Q : A -> owned -> Prop),
  holds O xp xs s -> holds O yp ys t -> (forall a, In a (h_arr s :: xp) -> ~ In a yp) ->
  (forall r O', grown s O r O' -> holds O' (xp ++ yp) (xs ++ ys) r -> runs (f r) O' Q) ->
  runs (pbind (pappend_slice grow s t) f) O Q.
Proof.
  intros A O s t xp xs yp ys f Q Hs Ht Dj H.
  eapply runs_append_slice; [apply Hs|apply Ht|]. intros r O' G M. apply H; [exact G|]. rewrite <- map_app in M.
  destruct Ht as (Dt & _ & Ft). inversion Dt; subst. eapply grown_holds; eassumption.
Qed.
Lemma grown_other : forall O O' s r xp xs yp ys t, holds O xp xs s -> grown s O r O' -> holds O yp ys t ->
  (forall a, In a (h_arr s :: xp) -> ~ In a (h_arr t :: yp)) ->
  holds O' yp ys t /\ ~ In (h_arr r) (h_arr t :: yp).
Proof.
  intros O O' s r xp xs yp ys t Hs [G1 G2] Ht Dj.
  assert (K : forall b c, In b (h_arr t :: yp) -> O b = Some c -> O' b = Some c).
  { intros b c I E. apply G1; [|exact E]. intros ->. apply (Dj (h_arr s)); [now left|exact I]. }
  split.
  - destruct Ht as (D & (c & Ec & M) & F). split; [exact D|]. split; [exists c; split; [apply K; [now left|exact Ec]|exact M]|].
    clear - F K. induction F as [|p v ps vs Ep F IH]; constructor; [apply K; [right; now left|exact Ep]|].
    apply IH. intros b c [I|I]; apply K; [now left|right; now right].
  - intros I. destruct G2 as [G2|G2]; [|now apply (holds_owned _ _ _ _ _ Ht I)]. rewrite G2 in I.
    apply (Dj (h_arr s)); [now left|exact I].
Qed.
Lemma gotn_append : forall A O O1 O2 p q xs ys (f : hdr -> prog A) (Q : A -> owned -> Prop), gotn O xs p O1 -> gotn O1 ys q O2 ->
  (forall r O', gotn O (xs ++ ys) r O' -> runs (f r) O' Q) ->
  runs (pbind (pappend_slice grow p q) f) O2 Q.
Proof.
  intros A O O1 O2 p q xs ys f Q (xp & Hx & Nx & W1) (yp & Hy & Ny & W2) H.
  eapply runs_append_n; [eapply holds_within; [exact W2|exact Hx]|exact Hy| |].
  - intros a Ia I. apply (holds_owned _ _ _ _ _ Hx Ia). rewrite Forall_forall in Ny. apply Ny. now right.
  - intros r O' [G1 G2] Hr. apply H. exists (xp ++ yp). split; [exact Hr|].
    inversion Nx as [|? ? Np Nx']; subst. inversion Ny as [|? ? Nq Ny']; subst. split.
    + constructor.
      * destruct G2 as [->|G2]; [exact Np|]. apply (within_none _ _ _ W1), (within_none _ _ _ W2), G2.
      * apply Forall_app. split; [exact Nx'|]. eapply Forall_impl; [|exact Ny']. intros a Ea. now apply (within_none _ _ _ W1).
    + intros b c Eb. apply G1; [congruence|]. now apply W2, W1.
Qed.
Lemma gotn_trans : forall O O1 vs r O2, within O O1 -> gotn O1 vs r O2 -> gotn O vs r O2.
Proof.
  intros O O1 vs r O2 W (ps & H & Nn & W2). exists ps. split; [exact H|]. split; [|now apply (within_trans _ O1)].
  eapply Forall_impl; [|exact Nn]. intros a Ea. now apply (within_none _ _ _ W).
Qed.

(** ** the functions; the modulus is a number everybody may read *)
Variable N : nat.
Variable Nv : Z.
Hypothesis HN : common N Nv.
Hypothesis Npos : (0 < Nv)%Z.

Ltac elem C := eapply runs_elem; [eassumption|reflexivity|]; intros ? C.
Ltac isnum := first [eassumption | apply common_num; eassumption | eapply num_within; [eassumption|isnum]].

Ltac nums := repeat (apply Forall2_cons; [isnum|]); apply Forall2_nil.

Lemma runs_small_n : forall O s vs base bv ps, elements s vs -> num O base bv -> handleSmallSet bv Nv vs = Ret ps ->
  runs (handleSmallSet_n grow base N s) O (gotn O ps).
Proof.
  intros O s vs base bv ps H Hb E. unfold handleSmallSet_n. rewrite (elements_length s vs H).
  destruct vs as [|x0 [|x1 [|x2 [|x3 [|x4 vs]]]]]; cbn [length handleSmallSet] in *; try discriminate E.
  - injection E as <-. unfold pmake. cbn [Nat.leb pbind InterleaveProofs.runs]. intros a Ea.
    set (O1 := set O a (repeat None 1)).
    assert (W1 : within O O1) by (eapply within_new; [exact Ea|]; intros b Hbb; now apply set_other).
    eapply runs_made; [apply runs_new|]. intros t O2 (Nt & Et & W2).
    assert (E1 : O2 a = Some (repeat None 1)) by (apply W2, set_same).
    assert (Ta : t <> a) by (intros ->; unfold O1 in Nt; rewrite set_same in Nt; discriminate).
    unfold pput. cbn [h_len h_arr h_off Nat.ltb Nat.leb Nat.add]. apply runs_bind.
    eapply runs_pwrite; [exact E1|cbn; lia|]. intros O3 E3 K3. cbn in E3.
    unfold pelem, pgetz, pget. cbn [h_len h_arr h_off Nat.ltb Nat.leb Nat.add pbind InterleaveProofs.runs].
    exists (ptr t). split; [right; eexists; split; [exact E3|reflexivity]|]. cbn [deref ptr plift pbind]. rewrite Nat2Z.id.
    assert (W3 : within O O3).
    { intros b c Eb. rewrite K3 by congruence. now apply W2, W1. }
    eapply runs_val; [eapply num_within; [exact W3|exact Hb]|].
    eapply runs_set; [rewrite K3 by exact Ta; exact Et|]. intros O4 E4 K4. cbn [InterleaveProofs.runs].
    exists [t]. cbn [h_arr]. split; [split; [|split]|split].
    + cbn [h_arr]. constructor; [intros [I|[]]; congruence|]. constructor; [easy|constructor].
    + exists [ptr t]. cbn [h_arr h_off h_len h_cap length map]. split; [rewrite K4 by congruence; exact E3|].
      split; [lia|]. split; [reflexivity|]. split; [lia|].
      intros [|[|i]] v Ei; cbn [nth_error] in Ei; [injection Ei as <-; reflexivity|discriminate|discriminate].
    + constructor; [exact E4|constructor].
    + constructor; [exact Ea|]. constructor; [now apply (within_none _ _ _ W1)|constructor].
    + intros b c Eb. rewrite K4; [now apply W3|]. intros ->. apply W1 in Eb. congruence.
  - elem C1. elem C0. eapply runs_exps_n; [exact Hb|apply common_num, HN|nums|exact E].
  - elem C1. elem C2. eapply runs_made; [apply runs_mul; isnum|]. intros e0 O1 M1.
    elem C3. elem C4. eapply runs_made; [apply runs_mul; isnum|]. intros e1 O2 M2.
    elem C5. elem C6. eapply runs_made; [apply runs_mul; isnum|]. intros e2 O3 M3.
    destruct (multi_exp bv Nv [(x1 * x2)%Z; (x0 * x2)%Z]) as [vs| |] eqn:Em; cbn [bind] in E; try discriminate E.
    injection E as <-.
    assert (Hb1 : num O1 base bv) by (eapply num_within; [apply (made_within _ _ _ _ M1)|exact Hb]).
    assert (Hb2 : num O2 base bv) by (eapply num_within; [apply (made_within _ _ _ _ M2)|exact Hb1]).
    assert (Hb3 : num O3 base bv) by (eapply num_within; [apply (made_within _ _ _ _ M3)|exact Hb2]).
    assert (He0 : num O3 e0 (x1 * x2)) by (apply owned_num; apply (made_kept _ _ _ _ _ _ M3), (made_kept _ _ _ _ _ _ M2), (made_owned _ _ _ _ M1)).
    assert (He1 : num O3 e1 (x0 * x2)) by (apply owned_num; apply (made_kept _ _ _ _ _ _ M3), (made_owned _ _ _ _ M2)).
    assert (W : within O O3) by (intros b c Eb; apply (made_kept _ _ _ _ _ _ M3), (made_kept _ _ _ _ _ _ M2), (made_kept _ _ _ _ _ _ M1), Eb).
    eapply runs_made.
    { eapply runs_exps_n; [exact Hb3|apply common_num, HN|nums|exact Em]. }
    intros r O4 (ps & Hr & Nr & W4).
    eapply runs_made.
    { apply runs_AccumulateNew; [eapply num_within; [exact W4|exact Hb3]|eapply num_within; [exact W4|eapply made_num, M3]|apply common_num, HN]. }
    intros t O5 (Nt & Et & W5).
    change [ptr t] with (map Some (map Z.of_nat [t])).
    pose proof (holds_within _ _ _ _ _ W5 Hr) as Hr5.
    eapply runs_append; [apply Hr5|]. intros r2 O6 G M. rewrite <- map_app in M.
    assert (Dj : forall a, In a (h_arr r :: ps) -> ~ In a [t]).
    { intros a Ia [->|[]]. now apply (holds_owned _ _ _ _ _ Hr Ia). }
    exists (ps ++ [t]). inversion Nr as [|? ? Nh Np]; subst. split; [|split].
    + eapply grown_holds; [exact Hr5|exact G|exact M|repeat constructor; easy|repeat constructor; exact Et|exact Dj].
    + assert (T : forall a, O3 a = None -> O a = None) by (intros a Ea; now apply (within_none _ _ _ W)).
      constructor.
      * destruct G as [_ [->|G2]]; [now apply T|]. now apply T, (within_none _ _ _ W4), (within_none _ _ _ W5).
      * apply Forall_app. split; [eapply Forall_impl; [exact T|exact Np]|].
        constructor; [now apply T, (within_none _ _ _ W4)|constructor].
    + intros b c Eb. apply W in Eb. apply G; [congruence|]. now apply W5, W4.
  - elem C0. elem C1. eapply runs_made; [apply runs_mul; isnum|]. intros a01 O1 M1.
    elem C2. elem C3. eapply runs_made; [apply runs_mul; isnum|]. intros a23 O2 M2.
    assert (H01 : num O2 a01 (x0 * x1)) by (apply owned_num; apply (made_kept _ _ _ _ _ _ M2), (made_owned _ _ _ _ M1)).
    pose proof (made_num _ _ _ _ M2) as H23.
    elem C4. eapply runs_made; [apply runs_mul; [exact H23|isnum]|]. intros e0 O3 M3.
    elem C5. eapply runs_made; [apply runs_mul; [eapply num_within; [apply (made_within _ _ _ _ M3)|exact H23]|isnum]|]. intros e1 O4 M4.
    assert (H01' : num O4 a01 (x0 * x1)) by (eapply num_within; [apply (made_within _ _ _ _ M4)|]; eapply num_within; [apply (made_within _ _ _ _ M3)|exact H01]).
    elem C6. eapply runs_made; [apply runs_mul; [exact H01'|isnum]|]. intros e2 O5 M5.
    elem C7. eapply runs_made; [apply runs_mul; [eapply num_within; [apply (made_within _ _ _ _ M5)|exact H01']|isnum]|]. intros e3 O6 M6.
    assert (W : within O O6) by (intros b c Eb; apply (made_kept _ _ _ _ _ _ M6), (made_kept _ _ _ _ _ _ M5), (made_kept _ _ _ _ _ _ M4), (made_kept _ _ _ _ _ _ M3), (made_kept _ _ _ _ _ _ M2), (made_kept _ _ _ _ _ _ M1), Eb).
    rewrite (Z.mul_comm x2 x3), (Z.mul_comm x3 x2) in E.
    eapply runs_mono; [|intros r O' G; eapply gotn_trans; [exact W|exact G]].
    eapply runs_exps_n; [eapply num_within; [exact W|exact Hb]|apply common_num, HN| |exact E].
    repeat (apply Forall2_cons; [apply owned_num|]); [| | | |apply Forall2_nil].
    + apply (made_kept _ _ _ _ _ _ M6), (made_kept _ _ _ _ _ _ M5), (made_kept _ _ _ _ _ _ M4), (made_owned _ _ _ _ M3).
    + apply (made_kept _ _ _ _ _ _ M6), (made_kept _ _ _ _ _ _ M5), (made_owned _ _ _ _ M4).
    + apply (made_kept _ _ _ _ _ _ M6), (made_owned _ _ _ _ M5).
    + apply  (made_owned _ _ _ _ M6).
Qed.

(** ** four bases, four calls *)
Definition randomizes (ro : option nat) (r : Z) : Prop := match ro with Some a => common a r | None => r = 1%Z end.

Lemma runs_randomized : forall O ro r p v, randomizes ro r -> O p = Some [Some v] ->
  runs (match ro with Some a => pmul p a | None => PRet p end) O (fun a O' => O' a = Some [Some (v * r)%Z] /\ within O O').
Proof.
  intros O [a|] r p v Hr E; cbn [randomizes] in Hr.
  - eapply runs_mono; [apply runs_mul; [apply owned_num, E|apply common_num, Hr]|]. intros x O' M.
    split; [now apply (made_owned O)|eapply made_within, M].
  - subst r. cbn [InterleaveProofs.runs]. rewrite Z.mul_1_r. split; [exact E|apply within_refl].
Qed.
Lemma runs_four_bases_n : forall O s vs base bv ro r bs, elements s vs -> num O base bv -> randomizes ro r ->
  multi_exp bv Nv (base_exponents r vs) = Ret bs -> runs (four_bases_n base N ro s) O (gotn O bs).
Proof.
  intros O s vs base bv ro r bs H Hb Hr E. unfold four_bases_n. cbv zeta. rewrite !(elements_length s vs H).
  unfold base_exponents in E. cbv zeta in E. set (k := length vs) in *.
  rewrite (elements_from s vs) by (auto; lia). cbn [pbind].
  eapply runs_made; [apply runs_Product_n; apply elements_sub; [exact H|lia]|]. intros l0 O1 M1.
  rewrite (elements_reslice s vs) by (auto; lia). cbn [pbind].
  eapply runs_made; [apply runs_Product_n; apply elements_sub; [exact H|lia]|]. intros r0 O2 M2.
  eapply runs_made; [eapply runs_randomized; [exact Hr|apply (made_kept _ _ _ _ _ _ M2), (made_owned _ _ _ _ M1)]|]. intros l O3 [E3 W3].
  eapply runs_made; [eapply runs_randomized; [exact Hr|apply W3, (made_owned _ _ _ _ M2)]|]. intros r' O4 [E4 W4].
  rewrite (elements_reslice s vs) by (auto; lia). cbn [pbind].
  eapply runs_made; [apply runs_Product_n; apply elements_sub; [exact H|lia]|]. intros ll O5 (_ & E5 & W5).
  rewrite (elements_reslice s vs) by (auto; lia). cbn [pbind].
  eapply runs_made; [apply runs_Product_n; apply elements_sub; [exact H|lia]|]. intros lr O6 (_ & E6 & W6).
  rewrite (elements_from s vs) by (auto; lia). cbn [pbind].
  eapply runs_made; [apply runs_Product_n; apply elements_sub; [exact H|lia]|]. intros rl O7 (_ & E7 & W7).
  rewrite (elements_reslice s vs) by (auto; lia). cbn [pbind].
  eapply runs_made; [apply runs_Product_n; apply elements_sub; [exact H|lia]|]. intros rr O8 (_ & E8 & W8).
  apply W4, W5, W6, W7, W8 in E3. apply W5, W6, W7, W8 in E4. apply W6, W7, W8 in E5. apply W7, W8 in E6. apply W8 in E7.
  eapply runs_made; [apply runs_mul; apply owned_num; [exact E3|exact E5]|]. intros e0 O9 (_ & E9 & W9).
  apply W9 in E3. apply W9 in E4. apply W9 in E6. apply W9 in E7. apply W9 in E8.
  eapply runs_made; [apply runs_mul; apply owned_num; [exact E3|exact E6]|]. intros e1 O10 (_ & E10 & W10).
  apply W10 in E4. apply W10 in E7. apply W10 in E8.
  eapply runs_made; [apply runs_mul; apply owned_num; [exact E4|exact E7]|]. intros e2 O11 (_ & E11 & W11).
  apply W11 in E4. apply W11 in E8.
  eapply runs_made; [apply runs_mul; apply owned_num; [exact E4|exact E8]|]. intros e3 O12 (_ & E12 & W12).
  apply W10, W11, W12 in E9. apply W11, W12 in E10. apply W12 in E11.
  assert (W : within O O12).
  { intros b c Eb. apply W12, W11, W10, W9, W8, W7, W6, W5, W4, W3, (made_within _ _ _ _ M2), (made_within _ _ _ _ M1), Eb. }
  eapply runs_mono; [|intros x O' G; eapply gotn_trans; [exact W|exact G]].
  eapply runs_exps_n; [eapply num_within; [exact W|exact Hb]|apply common_num, HN| |exact E].
  repeat (apply Forall2_cons; [apply owned_num; eassumption|]). apply Forall2_nil.
Qed.

(** what is proved of a sequential function *)
Definition goodn (call : nat -> hdr -> prog hdr) (vs : list Z) : Prop :=
  forall b bv s O, elements s vs -> num O b bv -> base_ok bv Nv vs -> runs (call b s) O (gotn O (wit bv Nv 1 vs)).

Lemma runs_four_calls_n : forall (call : nat -> hdr -> prog hdr) s vs bases ps b0 b1 b2 b3 O,
  elements s vs -> 4 <= length vs ->
  (forall i j, i < j <= length vs -> (j - i < length vs)%nat -> goodn call (slice vs i j)) ->
  holds O ps [b0; b1; b2; b3] bases ->
  (0 <= b0 < Nv)%Z -> (0 <= b1 < Nv)%Z -> (0 <= b2 < Nv)%Z -> (0 <= b3 < Nv)%Z ->
  runs (four_calls_n grow call bases s) O (gotn O
    (let k := length vs in
     wit b0 Nv 1 (slice vs 0 (k / 4)) ++ wit b1 Nv 1 (slice vs (k / 4) (k / 2)) ++
     wit b2 Nv 1 (slice vs (k / 2) (k * 3 / 4)) ++ wit b3 Nv 1 (slice vs (k * 3 / 4) k))).
Proof.
  intros call s vs bases ps b0 b1 b2 b3 O H L4 G Hb R0 R1 R2 R3. unfold four_calls_n. cbv zeta. rewrite !(elements_length s vs H).
  set (k := length vs) in *.
  assert (D1 : 0 < k / 4 /\ k / 4 < k / 2 /\ k / 2 < k * 3 / 4 /\ k * 3 / 4 < k) by (clear - L4; lia).
  assert (C : forall i j b bv O, i < j <= k -> j - i < k -> (0 <= bv < Nv)%Z -> O b = Some [Some bv] ->
    runs (call b (sub s i j)) O (gotn O (wit bv Nv 1 (slice vs i j)))).
  { intros i j b bv O' Hij Hlt Rb Eb. apply G; [exact Hij|exact Hlt|apply elements_sub; [exact H|lia]|now apply owned_num|now right]. }
  clear G.
  assert (Hps : exists q0 q1 q2 q3, ps = [q0; q1; q2; q3]).
  { destruct Hb as (_ & _ & F). pose proof (Forall2_length _ _ _ _ _ F) as L.
    destruct ps as [|q0 [|q1 [|q2 [|q3 [|q4 ps]]]]]; try discriminate L. eauto. }
  destruct Hps as (q0 & q1 & q2 & q3 & ->).
  assert (HW : forall O' vs' r, gotn O vs' r O' -> holds O' [q0; q1; q2; q3] [b0; b1; b2; b3] bases).
  { intros O' vs' r (ps & _ & _ & W). eapply holds_within; [exact W|exact Hb]. }
  replace (wit b0 Nv 1 (slice vs 0 (k / 4)) ++ _) with
    (((wit b0 Nv 1 (slice vs 0 (k / 4)) ++ wit b1 Nv 1 (slice vs (k / 4) (k / 2))) ++
     wit b2 Nv 1 (slice vs (k / 2) (k * 3 / 4))) ++ wit b3 Nv 1 (slice vs (k * 3 / 4) k)) by now rewrite <- !app_assoc.
  (* first and second *)
  eapply runs_base; [exact Hb|reflexivity|reflexivity|]. intros V0. rewrite (elements_reslice s vs) by (auto; fold k; lia). cbn [pbind].
  eapply runs_made; [apply C; [lia|lia|exact R0|exact V0]|]. intros p0 O1 g0. cbn beta.
  eapply runs_base; [eapply HW, g0|reflexivity|reflexivity|]. intros V1.
  rewrite (elements_reslice s vs) by (auto; fold k; lia). cbn [pbind].
  eapply runs_made; [apply C; [lia|lia|exact R1|exact V1]|]. intros r1 O2 g1. cbn beta.
  eapply gotn_append; [exact g0|exact g1|]. intros p1 O3 g2. clear O1 O2 g0 g1 V0 V1.
  (* third *)
  eapply runs_base; [eapply HW, g2|reflexivity|reflexivity|]. intros V2.
  rewrite (elements_reslice s vs) by (auto; fold k; lia). cbn [pbind].
  eapply runs_made; [apply C; [lia|lia|exact R2|exact V2]|]. intros r2 O4 g3. cbn beta.
  eapply gotn_append; [exact g2|exact g3|]. intros p2 O5 g4. clear O3 O4 g2 g3 V2.
  (* fourth *)
  eapply runs_base; [eapply HW, g4|reflexivity|reflexivity|]. intros V3.
  rewrite (elements_from s vs) by (auto; fold k; lia). cbn [pbind].
  eapply runs_made; [apply C; [lia|lia|exact R3|exact V3]|]. intros r3 O6 g5. cbn beta.
  apply pbind_ret. eapply gotn_append; [exact g4|exact g5|]. intros r O7 g6. exact g6.
Qed.

Lemma good_quarters_n : forall (call : nat -> hdr -> prog hdr) b bv ro r s vs O, (0 <= r)%Z -> nonneg vs ->
  elements s vs -> num O b bv -> randomizes ro r -> 4 <= length vs ->
  (forall i j, i < j <= length vs -> (j - i < length vs)%nat -> goodn call (slice vs i j)) ->
  runs (pbind (four_bases_n b N ro s) (fun bases => four_calls_n grow call bases s)) O (gotn O (wit bv Nv r vs)).
Proof.
  intros call b bv ro r s vs O Hr Hv H Hb Hro L4 G.
  eapply runs_made; [eapply runs_four_bases_n; [exact H|exact Hb|exact Hro|now apply base_list_exp]|].
  intros bases O1 (ps & Hp & _ & W). rewrite base_list_four in Hp. rewrite (wit_quarters P grow bv r Nv vs Npos Hr Hv).
  eapply runs_mono; [eapply runs_four_calls_n; [exact H|exact L4|exact G|exact Hp| | | |]; now apply (base_list_range P grow)|].
  intros x O2 g2. eapply gotn_trans; eassumption.
Qed.
Lemma good_membership_n : forall f vs, nonneg vs -> 1 <= length vs <= f -> goodn (prove_membership_n grow f N) vs.
Proof.
  induction f as [|f IH]; intros vs Hv Hf b bv s O H Hb Hok; [lia|].
  cbn [prove_membership_n]. rewrite (elements_length s vs H). destruct (Nat.leb_spec (length vs) 4).
  - apply (runs_small_n O s vs _ bv); [exact H|exact Hb|]. apply handleSmallSet_spec; auto; lia.
  - eapply good_quarters_n; eauto; try lia; [reflexivity|]. intros i j Hij Hlt. apply IH; [now apply slice_Forall|].
    rewrite slice_length by lia. lia.
Qed.
Lemma good_ProveMembership_n : forall vs, nonneg vs -> 1 <= length vs -> goodn (ProveMembership_n grow N) vs.
Proof.
  intros vs Hv L b bv s O H Hb Hok. unfold ProveMembership_n. rewrite (elements_length s vs H). now apply good_membership_n.
Qed.
Lemma good_randomizer_n : forall b bv ra r s vs O, (0 <= r)%Z -> nonneg vs -> elements s vs -> num O b bv -> common ra r ->
  4 <= length vs -> runs (SingleThreadWithRandomizer_n grow N b ra s) O (gotn O (wit bv Nv r vs)).
Proof.
  intros b bv ra r s vs O Hr Hv H Hb Hra L4. eapply good_quarters_n; eauto. intros i j Hij Hlt.
  apply good_ProveMembership_n; [now apply slice_Forall|]. rewrite slice_length by lia. lia.
Qed.

(** ** goroutines *)
(** the first goroutine takes number [a] with it *)
Definition only (O : owned) (a : nat) : owned := fun b => if b =? a then O b else None.
Definition minus (O : owned) (a : nat) : owned := fun b => if b =? a then None else O b.

Lemma only_here : forall O a, only O a a = O a.
Proof. intros O a. unfold only. now rewrite Nat.eqb_refl. Qed.
Lemma minus_there : forall O a b, b <> a -> minus O a b = O b.
Proof. intros O a b Hb. unfold minus. destruct (Nat.eqb_spec b a); congruence. Qed.
Lemma runs_par_n : forall A B (p : prog A) (q : prog B) O a Q1 Q2 (Q : A * B -> owned -> Prop),
  runs p (only O a) Q1 -> runs q (minus O a) Q2 ->
  (forall x y O1 O2 O', Q1 x O1 -> Q2 y O2 -> within O1 O' -> within O2 O' -> apart O1 O2 -> Q (x, y) O') ->
  runs (ppar p q) O Q.
Proof.
  intros A B p q O a Q1 Q2 Q H1 H2 H. unfold ppar. cbn [InterleaveProofs.runs].
  exists (only O a), (minus O a), nothing, Q1, Q2. split; [|split; [|split; [now intros b c|split]]].
  - intros b c. unfold only. destruct (b =? a); [auto|discriminate].
  - intros b c. unfold minus. destruct (b =? a); [discriminate|auto].
  - intros b. unfold only, minus. destruct (b =? a); [auto|congruence].
  - split; [now intros b _|]. split; [now intros b _|].
    split; [exact H1|]. split; [exact H2|]. intros x y O1 O2 O' g1 g2 g3 g4 _ g6 _ _. now apply (H x y O1 O2 O').
Qed.

(** a slice of new numbers with the given values *)
Definition ends (vs : list Z) (r : hdr) (O : owned) : Prop := exists ps, holds O ps vs r.
Lemma gotn_ends : forall (p : prog hdr) O vs, runs p O (gotn O vs) -> runs p O (ends vs).
Proof. intros p O vs H. eapply runs_mono; [exact H|]. intros r O' (ps & Hp & _). now exists ps. Qed.
Lemma apart_holds : forall O1 O2 ps xs r qs ys t, apart O1 O2 -> holds O1 ps xs r -> holds O2 qs ys t ->
  forall a, In a (h_arr r :: ps) -> ~ In a (h_arr t :: qs).
Proof.
  intros O1 O2 ps xs r qs ys t A Hr Ht a Ia I. apply (holds_owned _ _ _ _ _ Ht I). apply A. now apply (holds_owned _ _ _ _ _ Hr).
Qed.
(** the array and the numbers but one *)
Lemma holds_tail : forall O ps vs r p, holds O ps vs r -> In p ps ->
  mine (minus O p) (map Z.of_nat ps) r.
Proof.
  intros O ps vs r p (D & (c & E & M) & _) I. exists c. split; [|exact M]. rewrite minus_there; [exact E|].
  intros Eq. inversion D as [|? ? Nn _]. apply Nn. now rewrite Eq.
Qed.
Lemma runs_pointer : forall A O ps r i p (f : nat -> prog A) (Q : A -> owned -> Prop), mine O (map Z.of_nat ps) r ->
  nth_error ps i = Some p -> runs (f p) O Q -> runs (pbind (pelem r i) f) O Q.
Proof.
  intros A O ps r i p f Q M Ep G. unfold pelem. apply runs_bind.
  eapply runs_getz; [apply mine_readable, M|rewrite nth_error_map, Ep; reflexivity|].
  cbn [InterleaveProofs.runs]. now rewrite Nat2Z.id.
Qed.

Lemma good_chan_n : forall f limit b bv s vs O, nonneg vs -> 1 <= length vs <= f -> elements s vs -> num O b bv ->
  base_ok bv Nv vs -> runs (with_chan_n grow f N limit b s) O (ends (wit bv Nv 1 vs)).
Proof.
  induction f as [|f IH]; intros limit b bv s vs O Hv Hf H Hb Hok; [lia|].
  cbn [with_chan_n]. destruct (limit <=? 0)%Z; [apply gotn_ends, good_ProveMembership_n; auto; lia|]. cbv zeta. rewrite !(elements_length s vs H).
  destruct (Nat.leb_spec (length vs) 4).
  { apply gotn_ends. apply (runs_small_n O s vs _ bv); [exact H|exact Hb|]. apply handleSmallSet_spec; auto; lia. }
  set (k := length vs) in *.
  assert (PN : forall i j, (0 <= product (slice vs i j))%Z) by (intros; apply product_nonneg, slice_Forall; exact Hv).
  rewrite (elements_from s vs) by (auto; lia). cbn [pbind].
  eapply runs_made; [apply runs_Product_n; apply elements_sub; [exact H|lia]|]. intros lp O1 (_ & E1 & W1).
  rewrite (elements_reslice s vs) by (auto; lia). cbn [pbind].
  eapply runs_made; [apply runs_Product_n; apply elements_sub; [exact H|lia]|]. intros rp O2 (_ & E2 & W2).
  fold k in E1. set (e1 := product (slice vs (k / 2) k)) in *. set (e2 := product (slice vs 0 (k / 2))) in *.
  eapply runs_made.
  { apply (runs_exps_n O2 b N bv Nv [lp; rp] [e1; e2] [(bv ^ e1 mod Nv)%Z; (bv ^ e2 mod Nv)%Z]).
    - eapply num_within; [exact W2|]. eapply num_within; [exact W1|exact Hb].
    - apply common_num, HN.
    - apply Forall2_cons; [apply owned_num, W2, E1|]. apply Forall2_cons; [apply owned_num, E2|apply Forall2_nil].
    - rewrite multi_exp_spec; [reflexivity|exact Npos|]. repeat constructor; apply PN. }
  intros bases O3 (ps & Hp & _ & _). cbn beta.
  pose proof (proj2 (proj2 Hp)) as F. inversion F as [|q0 ? ps' ? V0 F' Eps]; subst ps. inversion F' as [|q1 ? ps'' ? V1 F'']; subst ps'.
  inversion F''; subst ps''. clear F F' F''.
  assert (Hn : q1 <> q0).
  { destruct Hp as (D & _). inversion D as [|? ? _ D']; subst. inversion D' as [|? ? Nn _]; subst. intros ->. apply Nn. now left. }
  eapply runs_base; [exact Hp|reflexivity|reflexivity|]. intros _. cbn [pbind].
  apply runs_bind. eapply (runs_par_n _ _ _ _ _ q0).
  - apply (IH _ _ (bv ^ e1 mod Nv)%Z _ (slice vs 0 (k / 2))).
    + now apply slice_Forall.
    + rewrite slice_length; lia.
    + apply elements_sub; [exact H|lia].
    + apply owned_num. now rewrite only_here.
    + right. apply Z.mod_pos_bound, Npos.
  - eapply runs_pointer; [eapply holds_tail; [exact Hp|now left]|reflexivity|]. cbn [pbind].
    apply (IH _ _ (bv ^ e2 mod Nv)%Z _ (slice vs (k / 2) k)).
    + now apply slice_Forall.
    + rewrite slice_length; lia.
    + apply elements_sub; [exact H|lia].
    + apply owned_num. now rewrite minus_there.
    + right. apply Z.mod_pos_bound, Npos.
  - intros r1 r2 O4 O5 O6 (p1 & M1) (p2 & M2) W4 W5 A. cbn beta in *.
    pose proof (apart_holds _ _ _ _ _ _ _ _ A M1 M2) as Dj.
    apply pbind_ret. eapply runs_append_n; [eapply holds_within; [exact W4|exact M1]|eapply holds_within; [exact W5|exact M2]| |].
    { intros a Ia I. apply (Dj a Ia). now right. }
    intros r O7 _ M. cbn [InterleaveProofs.runs]. clear - M Npos Hv PN Hf.
    rewrite !wit_base in M by (auto using slice_Forall; try lia; apply PN).
    rewrite !Z.mul_1_r in M. exists (p1 ++ p2).
    replace (wit bv Nv 1 vs) with (wit bv Nv e1 (slice vs 0 (k / 2)) ++ wit bv Nv e2 (slice vs (k / 2) k)); [exact M|].
    transitivity (wit bv Nv 1 (slice vs 0 k)); [|unfold k; now rewrite slice_full].
    rewrite (slice_app _ vs 0 (k / 2) k) by lia. rewrite wit_app. unfold e1, e2. f_equal; f_equal; ring.
Qed.

(** no array and no number in common *)
Definition separate (r : hdr) (ps : list nat) (t : hdr) (qs : list nat) : Prop :=
  forall a, In a (h_arr r :: ps) -> ~ In a (h_arr t :: qs).
Lemma separate_append : forall O O' s q r xp xs yp ys zp zs t, holds O xp xs s -> grown s O q O' -> holds O zp zs t ->
  separate s xp t zp -> separate r yp t zp -> holds O yp ys r ->
  holds O' zp zs t /\ separate q (xp ++ yp) t zp.
Proof.
  intros O O' s q r xp xs yp ys zp zs t Hs G Ht D1 D2 Hr.
  destruct (grown_other _ _ _ _ _ _ _ _ _ Hs G Ht D1) as [Ht' Nn]. split; [exact Ht'|].
  intros a [<-|Ia]; [exact Nn|]. apply in_app_iff in Ia. destruct Ia as [Ia|Ia]; [apply D1|apply D2]; now right.
Qed.

Lemma runs_four_goroutines_n : forall limit s vs bases ps b0 b1 b2 b3 O, nonneg vs ->
  elements s vs -> 4 <= length vs -> holds O ps [b0; b1; b2; b3] bases ->
  (0 <= b0 < Nv)%Z -> (0 <= b1 < Nv)%Z -> (0 <= b2 < Nv)%Z -> (0 <= b3 < Nv)%Z ->
  runs (four_goroutines_n grow N limit bases s) O (ends
    (let k := length vs in
     wit b0 Nv 1 (slice vs 0 (k / 4)) ++ wit b1 Nv 1 (slice vs (k / 4) (k / 2)) ++
     wit b2 Nv 1 (slice vs (k / 2) (k * 3 / 4)) ++ wit b3 Nv 1 (slice vs (k * 3 / 4) k))).
Proof.
  intros limit s vs bases ps b0 b1 b2 b3 O Hv H L4 Hb R0 R1 R2 R3. unfold four_goroutines_n. cbv zeta. rewrite !(elements_length s vs H).
  set (k := length vs) in *.
  assert (D1 : 0 < k / 4 /\ k / 4 < k / 2 /\ k / 2 < k * 3 / 4 /\ k * 3 / 4 < k) by (clear - L4; lia).
  assert (C : forall i j b bv O, i < j <= k -> (0 <= bv < Nv)%Z -> O b = Some [Some bv] ->
    runs (WithChan_n grow N limit b (sub s i j)) O (ends (wit bv Nv 1 (slice vs i j)))).
  { intros i j b bv O' Hij Rb Eb. unfold WithChan_n. cbn [sub h_len]. rewrite <- (slice_length _ vs i j) by (fold k; lia).
    apply good_chan_n; [now apply slice_Forall|rewrite slice_length by (fold k; lia); lia| |now apply owned_num|now right].
    apply elements_sub; [exact H|fold k; lia]. }
  set (w0 := wit b0 _ _ _). set (w1 := wit b1 _ _ _). set (w2 := wit b2 _ _ _). set (w3 := wit b3 _ _ _).
  replace (w0 ++ w1 ++ w2 ++ w3) with (((w0 ++ w1) ++ w2) ++ w3) by now rewrite <- !app_assoc.
  destruct Hb as (D & M & F).
  inversion F as [|q0 ? ps' ? V0 F']; subst ps. inversion F' as [|q1 ? ps'' ? V1 F'']; subst ps'.
  inversion F'' as [|q2 ? ps3 ? V2 F3]; subst ps''. inversion F3 as [|q3 ? ps4 ? V3 F4]; subst ps3. inversion F4; subst ps4.
  clear F F' F'' F3 F4.
  inversion D as [|? ? N0 D']; subst. inversion D' as [|? ? N1 D'']; subst. inversion D'' as [|? ? N2 D3]; subst.
  inversion D3 as [|? ? N3 _]; subst. clear D D' D'' D3. cbn [In] in N0, N1, N2, N3.
  assert (Mm : forall O' q, mine O' (map Z.of_nat [q0; q1; q2; q3]) bases -> q <> h_arr bases ->
    mine (minus O' q) (map Z.of_nat [q0; q1; q2; q3]) bases).
  { intros O' q (c & E & M') Hq. exists c. split; [|exact M']. rewrite minus_there by congruence. exact E. }
  eapply runs_pointer; [exact M|reflexivity|]. rewrite (elements_reslice s vs) by (auto; fold k; lia). cbn [pbind].
  apply runs_bind.
  eapply (runs_par_n _ _ _ _ _ q0 _ (fun '(r1, (r2, r3)) O' => exists p1 p2 p3,
    holds O' p1 w1 r1 /\ holds O' p2 w2 r2 /\ holds O' p3 w3 r3 /\
    separate r1 p1 r2 p2 /\ separate r1 p1 r3 p3 /\ separate r2 p2 r3 p3)).
  - apply C; [lia|exact R0|now rewrite only_here].
  - apply (Mm _ q0) in M; [|intros ->; apply N0; auto].
    eapply runs_pointer; [exact M|reflexivity|]. rewrite (elements_reslice s vs) by (auto; fold k; lia). cbn [pbind].
    eapply (runs_par_n _ _ _ _ _ q1 _ (fun '(r2, r3) O' => exists p2 p3,
      holds O' p2 w2 r2 /\ holds O' p3 w3 r3 /\ separate r2 p2 r3 p3)).
    + apply C; [lia|exact R1|]. rewrite only_here. rewrite minus_there; [exact V1|]. intros ->. apply N1. auto.
    + apply (Mm _ q1) in M; [|intros ->; apply N0; auto].
      eapply runs_pointer; [exact M|reflexivity|]. rewrite (elements_reslice s vs) by (auto; fold k; lia). cbn [pbind].
      eapply (runs_par_n _ _ _ _ _ q2).
      * apply C; [lia|exact R2|]. rewrite only_here.
        rewrite minus_there by (intros ->; apply N2; auto). rewrite minus_there by (intros ->; apply N1; auto). exact V2.
      * apply (Mm _ q2) in M; [|intros ->; apply N0; auto].
        eapply runs_pointer; [exact M|reflexivity|]. rewrite (elements_from s vs) by (auto; fold k; lia). cbn [pbind].
        apply C; [fold k; lia|exact R3|].
        rewrite minus_there by (intros ->; apply N3; auto). rewrite minus_there by (intros ->; apply N2; auto).
        rewrite minus_there by (intros ->; apply N1; auto). exact V3.
      * intros r2 r3 O1 O2 O' (p2 & M2) (p3 & M3) W1 W2 A. exists p2, p3.
        split; [now apply (holds_within O1)|]. split; [now apply (holds_within O2)|].
        exact (apart_holds _ _ _ _ _ _ _ _ A M2 M3).
    + intros r1 [r2 r3] O1 O2 O' (p1 & M1) (p2 & p3 & M2 & M3 & S23) W1 W2 A. exists p1, p2, p3.
      split; [now apply (holds_within O1)|]. split; [now apply (holds_within O2)|]. split; [now apply (holds_within O2)|].
      split; [exact (apart_holds _ _ _ _ _ _ _ _ A M1 M2)|]. split; [exact (apart_holds _ _ _ _ _ _ _ _ A M1 M3)|exact S23].
  - intros r0 [r1 [r2 r3]] O1 O2 O3 (p0 & M0) (p1 & p2 & p3 & M1 & M2 & M3 & S12 & S13 & S23) W1 W2 A.
    assert (S01 : separate r0 p0 r1 p1) by exact (apart_holds _ _ _ _ _ _ _ _ A M0 M1).
    assert (S02 : separate r0 p0 r2 p2) by exact (apart_holds _ _ _ _ _ _ _ _ A M0 M2).
    assert (S03 : separate r0 p0 r3 p3) by exact (apart_holds _ _ _ _ _ _ _ _ A M0 M3).
    apply (holds_within _ _ _ _ _ W1) in M0. apply (holds_within _ _ _ _ _ W2) in M1.
    apply (holds_within _ _ _ _ _ W2) in M2. apply (holds_within _ _ _ _ _ W2) in M3.
    eapply runs_append_n; [exact M0|exact M1|intros a Ia I; apply (S01 a Ia); now right|]. intros t1 O4 G1 K1.
    destruct (separate_append _ _ _ _ _ _ _ _ _ _ _ _ M0 G1 M2 S02 S12 M1) as [M2' T2].
    destruct (separate_append _ _ _ _ _ _ _ _ _ _ _ _ M0 G1 M3 S03 S13 M1) as [M3' T3].
    eapply runs_append_n; [exact K1|exact M2'|intros a Ia I; apply (T2 a Ia); now right|]. intros t2 O5 G2 K2.
    destruct (separate_append _ _ _ _ _ _ _ _ _ _ _ _ K1 G2 M3' T3 S23 M2') as [M3'' T4].
    apply pbind_ret. eapply runs_append_n; [exact K2|exact M3''|intros a Ia I; apply (T4 a Ia); now right|].
    intros t3 O6 _ K3. eexists. exact K3.
Qed.

Lemma good_quarters_par_n : forall limit b bv s vs O, nonneg vs -> elements s vs -> num O b bv -> 4 <= length vs ->
  runs (pbind (four_bases_n b N None s) (fun bases => four_goroutines_n grow N limit bases s)) O (ends (wit bv Nv 1 vs)).
Proof.
  intros limit b bv s vs O Hv H Hb L4.
  eapply runs_made; [eapply runs_four_bases_n; [exact H|exact Hb|reflexivity|apply base_list_exp; auto; lia]|].
  intros bases O1 (ps & Hp & _ & _). rewrite base_list_four in Hp. rewrite (wit_quarters P grow bv 1 Nv vs Npos ltac:(lia) Hv).
  eapply runs_four_goroutines_n; [exact Hv|exact H|exact L4|exact Hp| | | |]; now apply (base_list_range P grow).
Qed.
Lemma good_parallel_n : forall limit b bv s vs O, nonneg vs -> elements s vs -> num O b bv -> 1 <= length vs ->
  base_ok bv Nv vs -> runs (ProveMembershipParallel_n grow N b s limit) O (ends (wit bv Nv 1 vs)).
Proof.
  intros limit b bv s vs O Hv H Hb L1 Hok. unfold ProveMembershipParallel_n.
  destruct (limit <=? 0)%Z; [now apply gotn_ends, good_ProveMembership_n|]. rewrite (elements_length s vs H).
  destruct (Nat.leb_spec (length vs) 4).
  - apply gotn_ends. apply (runs_small_n O s vs _ bv); [exact H|exact Hb|]. apply handleSmallSet_spec; auto; lia.
  - apply good_quarters_par_n; auto. lia.
Qed.
Lemma good_parallel_randomizer_n : forall limit b bv ra r s vs O, (0 <= r)%Z -> nonneg vs -> elements s vs -> num O b bv ->
  common ra r -> 4 <= length vs ->
  runs (ParallelWithRandomizer_n grow N b ra s limit) O (ends (wit bv Nv (if (limit <=? 0)%Z then r else 1%Z) vs)).
Proof.
  intros limit b bv ra r s vs O Hr Hv H Hb Hra L4. unfold ParallelWithRandomizer_n. destruct (limit <=? 0)%Z.
  - apply gotn_ends. now apply good_randomizer_n.
  - now apply good_quarters_par_n.
Qed.
End Funs.
