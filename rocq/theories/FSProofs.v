(** Proofs about the transcript. *)
From Coq Require Import ZArith Bool Lia String List ZifyNat ZifyBool.
From Verif Require Import GoBig GoBigFacts StrFacts IterProofs HashModel FSModel.
Import ListNotations.
Open Scope Z_scope.

Lemma min253_val : min253 = 2 ^ 239.
Proof. unfold min253. rewrite Z.shiftl_mul_pow2 by lia. reflexivity. Qed.

Lemma wrap_max_range : forall s, 0 <= wrapNumber s Max252 <= 2 ^ 239 /\
  (wrapNumber s Max252 = 2 ^ 239 <-> set_bytes s = 2 ^ 239).
Proof.
  intros s. unfold wrapNumber. change (Max252 =? Default) with false. change (Max252 =? Max252) with true.
  cbn match. rewrite min253_val. assert (P : 0 < 2 ^ 239) by (apply Z.pow_pos_nonneg; lia).
  destruct (Z.eqb_spec (set_bytes s) (2 ^ 239)) as [E|E]; cbn [negb].
  - rewrite E. split; [lia|tauto].
  - unfold emod. rewrite Z.abs_eq by lia. pose proof (Z.mod_pos_bound (set_bytes s) (2 ^ 239) P).
    split; [lia|]. split; intros; lia.
Qed.

Lemma wrap_range : forall s len, 0 <= wrapNumber s len.
Proof.
  intros s len. unfold wrapNumber. pose proof (set_bytes_bound s).
  destruct (len =? Default); [lia|]. destruct (len =? Max252); [|lia].
  destruct (set_bytes s =? min253); cbn [negb]; [lia|]. unfold emod. apply Z.mod_pos_bound.
  rewrite min253_val. assert (0 < 2 ^ 239) by (apply Z.pow_pos_nonneg; lia). lia.
Qed.

Section FSP.
Variable sha : string -> string.
Variable is_prime : Z -> bool.

Lemma fs_loop_ret : forall fuel v0 len v, fs_loop sha is_prime fuel v0 len = Ret v ->
  is_prime v = true /\ (v = v0 \/ exists s, v = wrapNumber s len).
Proof.
  induction fuel; intros v0 len v H; cbn [fs_loop] in H; [discriminate|].
  destruct (is_prime v0) eqn:E.
  - injection H as <-. auto.
  - destruct (IHfuel _ _ _ H) as [H1 [->|H2]]; split; eauto.
Qed.
Lemma fs_prime_ret : forall fuel l len v, FS_HashToPrime sha is_prime fuel l len = Ret v ->
  is_prime v = true /\ exists s, v = wrapNumber s len.
Proof.
  intros fuel l len v H. apply fs_loop_ret in H. destruct H as [H1 [->|H2]]; eauto.
Qed.
Lemma fs_loop_mono : forall fuel v0 len v, fs_loop sha is_prime fuel v0 len = Ret v ->
  forall fuel', (fuel <= fuel')%nat -> fs_loop sha is_prime fuel' v0 len = Ret v.
Proof.
  induction fuel; intros v0 len v H fuel' Hf; cbn [fs_loop] in H; [discriminate|].
  destruct fuel'; [lia|]. cbn [fs_loop]. destruct (is_prime v0); [assumption|]. apply IHfuel; auto. lia.
Qed.

(** *** histories as token streams *)
Inductive token := TStr (s : string) | TPrime | TInt.
Definition tokens1 (o : op) : list token :=
  match o with
  | OpAppend s => [TStr s]
  | OpAppendSlice l => map TStr l
  | OpPrime | OpPrimeAppend => [TPrime]
  | OpInt => [TInt]
  end.
Definition tokens (ops : list op) : list token := concat (map tokens1 ops).

(** reference: the hash input is everything seen so far *)
Fixpoint run_tokens (fuel : nat) (acc : list string) (len : Z) (ts : list token) : outcome (list Z * list string) :=
  match ts with
  | [] => Ret ([], acc)
  | TStr s :: r => run_tokens fuel (acc ++ [s]) len r
  | TPrime :: r =>
      do c <- FS_HashToPrime sha is_prime fuel acc len;
      do (cs, fin) <- run_tokens fuel (acc ++ [dec c]) len r; Ret (c :: cs, fin)
  | TInt :: r =>
      let c := FS_HashToInt sha acc len in
      do (cs, fin) <- run_tokens fuel (acc ++ [dec c]) len r; Ret (c :: cs, fin)
  end.

Lemma run_tokens_strs : forall fuel l acc len ts,
  run_tokens fuel acc len (map TStr l ++ ts) = run_tokens fuel (acc ++ l) len ts.
Proof.
  induction l as [|s l IH]; intros acc len ts; cbn [map app run_tokens].
  - now rewrite app_nil_r.
  - rewrite IH, <- app_assoc. reflexivity.
Qed.

Lemma run_spec : forall fuel ops t,
  run sha is_prime fuel t ops =
  do (cs, fin) <- run_tokens fuel (info t) (maxlength t) (tokens ops); Ret (cs, MkTranscript fin (maxlength t)).
Proof.
  induction ops as [|o ops IH]; intros t.
  - destruct t. reflexivity.
  - unfold tokens. cbn [map concat]. fold (tokens ops).
    destruct o as [s|l| | |]; cbn [run tokens1].
    + rewrite IH. reflexivity.
    + rewrite IH, run_tokens_strs. reflexivity.
    + unfold GetPrimeChallenge. cbn [app run_tokens].
      destruct (FS_HashToPrime sha is_prime fuel (info t) (maxlength t)); cbn [bind]; try reflexivity.
      rewrite IH. cbn [Append info maxlength].
      destruct (run_tokens fuel (info t ++ [dec a]) (maxlength t) (tokens ops)) as [[cs fin]| |]; reflexivity.
    + unfold GetChallengeAndAppend, GetPrimeChallenge. cbn [app run_tokens].
      destruct (FS_HashToPrime sha is_prime fuel (info t) (maxlength t)); cbn [bind]; try reflexivity.
      rewrite IH. cbn [Append info maxlength].
      destruct (run_tokens fuel (info t ++ [dec a]) (maxlength t) (tokens ops)) as [[cs fin]| |]; reflexivity.
    + unfold GetIntChallenge. cbn [app run_tokens]. rewrite IH. cbn [Append info maxlength].
      destruct (run_tokens fuel (info t ++ [dec (FS_HashToInt sha (info t) (maxlength t))]) (maxlength t) (tokens ops)) as [[cs fin]| |]; reflexivity.
Qed.

Lemma run_tokens_app : forall fuel ts1 ts2 acc len,
  run_tokens fuel acc len (ts1 ++ ts2) =
  do (cs1, mid) <- run_tokens fuel acc len ts1; do (cs2, fin) <- run_tokens fuel mid len ts2; Ret (cs1 ++ cs2, fin).
Proof.
  induction ts1 as [|[s| |] ts1 IH]; intros ts2 acc len; cbn [app run_tokens bind].
  - destruct (run_tokens fuel acc len ts2) as [[cs fin]| |]; reflexivity.
  - apply IH.
  - destruct (FS_HashToPrime sha is_prime fuel acc len); cbn [bind]; try reflexivity. rewrite IH.
    destruct (run_tokens fuel (acc ++ [dec a]) len ts1) as [[cs mid]| |]; cbn [bind]; try reflexivity.
    destruct (run_tokens fuel mid len ts2) as [[cs2 fin]| |]; reflexivity.
  - rewrite IH.
    destruct (run_tokens fuel (acc ++ [dec (FS_HashToInt sha acc len)]) len ts1) as [[cs mid]| |]; cbn [bind]; try reflexivity.
    destruct (run_tokens fuel mid len ts2) as [[cs2 fin]| |]; reflexivity.
Qed.
End FSP.

(** ** concatenation *)
Lemma append_length : forall s t, String.length (s ++ t)%string = (String.length s + String.length t)%nat.
Proof. induction s; intros t; cbn; [reflexivity|]. now rewrite IHs. Qed.
Lemma append_split : forall s1 s2 t1 t2, String.length s1 = String.length s2 ->
  (s1 ++ t1)%string = (s2 ++ t2)%string -> s1 = s2 /\ t1 = t2.
Proof.
  induction s1 as [|a s1 IH]; intros [|b s2] t1 t2 Hl E; cbn in *; try discriminate; auto.
  injection Hl as Hl. injection E as -> E. destruct (IH _ _ _ Hl E) as [-> ->]. auto.
Qed.
Lemma written_inj : forall l1 l2, map String.length l1 = map String.length l2 ->
  written l1 = written l2 -> l1 = l2.
Proof.
  induction l1 as [|s l1 IH]; intros [|t l2] Hl E; cbn [map] in Hl; try discriminate; auto.
  injection Hl as H1 H2. cbn in E. destruct (append_split _ _ _ _ H1 E) as [-> E2].
  f_equal. now apply IH.
Qed.

(** ** slices and memory *)
Section SP.
Variable grow : nat -> nat -> nat.

Lemma nth_set_arr : forall h a c b, (a < length h)%nat ->
  nth b (set_arr h a c) [] = if (b =? a)%nat then c else nth b h [].
Proof.
  intros h a c b Ha. unfold set_arr.
  destruct (nth_error (firstn a h ++ c :: skipn (S a) h) b) as [x|] eqn:E.
  - rewrite (nth_error_nth _ _ _ E). rewrite nth_update in E by assumption.
    destruct (b =? a)%nat; [now injection E|]. symmetry. now apply nth_error_nth.
  - pose proof E as E'. rewrite nth_update in E by assumption. apply nth_error_None in E'.
    rewrite nth_overflow by assumption. destruct (b =? a)%nat; [discriminate|].
    apply nth_error_None in E. now rewrite nth_overflow.
Qed.

(** invariant of the transcript's slice *)
Record sinv (n0 : nat) (st : sstate) : Prop := SInv {
  si_hdr : match h_arr (sinfo st) with
           | None => h_len (sinfo st) = 0%nat
           | Some a => (a < length (sheap st))%nat /\ In a (sowned st) /\
                       (h_len (sinfo st) <= length (nth a (sheap st) []))%nat
           end;
  si_owned : Forall (fun a => (n0 <= a < length (sheap st))%nat) (sowned st);
  si_len : (n0 <= length (sheap st))%nat
}.

Lemma firstn_app_exact : forall A (l1 l2 : list A) n, n = length l1 -> firstn n (l1 ++ l2) = l1.
Proof. intros A l1 l2 n ->. rewrite firstn_app, Nat.sub_diag, firstn_all. cbn. apply app_nil_r. Qed.

Lemma append_spec : forall n0 h s o x h' s',
  sinv n0 (SSt h s o) -> go_append grow h s x = (h', s') ->
  sinv n0 (SSt h' s' (own s' o)) /\ view h' s' = view h s ++ x /\
  (forall a, ~ In a (own s' o) -> (a < length h)%nat -> nth a h' [] = nth a h []).
Proof.
  intros n0 h s o x h' s' [H1 H2 H3] E. cbn [sheap sinfo sowned] in *.
  unfold go_append in E. unfold view at 2. destruct s as [[a|] l]; cbn [h_arr h_len] in *.
  - destruct H1 as (Ha & Ho & Hl).
    destruct (Nat.leb_spec (l + length x) (length (nth a h []))) as [Hc|Hc].
    + injection E as <- <-.
      assert (Lh : length (set_arr h a (firstn l (nth a h []) ++ x ++ skipn (l + length x) (nth a h []))) = length h).
      { unfold set_arr. now apply length_update. }
      split; [|split].
      * constructor; cbn [sheap sinfo sowned own h_arr h_len].
        -- rewrite Lh. split; [assumption|]. split; [now left|]. rewrite nth_set_arr, Nat.eqb_refl by assumption.
           rewrite !app_length, firstn_length, skipn_length. lia.
        -- rewrite Lh. constructor; [|assumption]. rewrite Forall_forall in H2. now apply H2.
        -- lia.
      * unfold view. cbn [h_arr h_len]. rewrite nth_set_arr, Nat.eqb_refl by assumption.
        rewrite app_assoc. apply firstn_app_exact. rewrite app_length, firstn_length. lia.
      * intros b Hb Hlt. rewrite nth_set_arr by assumption. destruct (Nat.eqb_spec b a) as [->|]; [|reflexivity].
        exfalso. apply Hb. now left.
    + injection E as <- <-. set (c := firstn l (nth a h []) ++ x ++ repeat EmptyString (grow (length (nth a h [])) (l + length x))).
      assert (Hn : nth (length h) (h ++ [c]) [] = c) by (rewrite app_nth2, Nat.sub_diag by lia; reflexivity).
      split; [|split].
      * constructor; cbn [sheap sinfo sowned own h_arr h_len]; rewrite ?app_length; cbn [length].
        -- split; [lia|]. split; [now left|]. rewrite Hn. unfold c. rewrite !app_length, firstn_length. lia.
        -- constructor; [lia|]. eapply Forall_impl; [|exact H2]. cbv beta. intros; lia.
        -- lia.
      * unfold view. cbn [h_arr h_len]. rewrite Hn. unfold c. rewrite app_assoc. apply firstn_app_exact.
        rewrite app_length, firstn_length. lia.
      * intros b Hb Hlt. now rewrite app_nth1 by lia.
  - destruct x as [|x0 x].
    + injection E as <- <-. split; [|split].
      * constructor; cbn [sheap sinfo sowned own h_arr h_len]; auto.
      * reflexivity.
      * auto.
    + assert (E' : h' = h ++ [(x0 :: x) ++ repeat EmptyString (grow 0 (length (x0 :: x)))] /\
                   s' = Hdr (Some (length h)) (length (x0 :: x))) by (injection E as <- <-; split; reflexivity).
      clear E. destruct E' as [-> ->]. set (c := (x0 :: x) ++ repeat EmptyString (grow 0 (length (x0 :: x)))).
      assert (Hn : nth (length h) (h ++ [c]) [] = c) by (rewrite app_nth2, Nat.sub_diag by lia; reflexivity).
      split; [|split].
      * constructor; cbn [sheap sinfo sowned own h_arr h_len]; rewrite ?app_length; cbn [length].
        -- split; [lia|]. split; [now left|]. rewrite Hn. unfold c. rewrite app_length. cbn [length]. lia.
        -- constructor; [lia|]. eapply Forall_impl; [|exact H2]. cbv beta. intros; lia.
        -- lia.
      * unfold view. cbn [h_arr h_len]. rewrite Hn. unfold c. now apply firstn_app_exact.
      * intros b Hb Hlt. now rewrite app_nth1 by lia.
Qed.

Lemma existsb_In : forall a o, existsb (Nat.eqb a) o = false -> ~ In a o.
Proof.
  intros a o H Hin. assert (existsb (Nat.eqb a) o = true); [|congruence].
  apply existsb_exists. exists a. split; [assumption|apply Nat.eqb_refl].
Qed.

Lemma sstep_spec : forall n0 st e, sinv n0 st ->
  sinv n0 (sstep grow st e) /\
  view (sheap (sstep grow st e)) (sinfo (sstep grow st e)) =
    view (sheap st) (sinfo st) ++ match e with EAppend x => x | _ => [] end.
Proof.
  intros n0 [h s o] e HI. destruct e as [x|a i v|c]; cbn [sstep sheap sinfo sowned].
  - destruct (go_append grow h s x) as [h' s'] eqn:E.
    destruct (append_spec _ _ _ _ _ _ _ HI E) as (H1 & H2 & _). cbn [sheap sinfo]. auto.
  - rewrite app_nil_r.
    destruct (existsb (Nat.eqb a) o) eqn:Eo; cbn [orb]; [auto|].
    destruct (Nat.ltb_spec a (length h)) as [Ha|Ha]; cbn [negb orb]; [|auto].
    destruct (Nat.ltb_spec i (length (nth a h []))) as [Hi|Hi]; cbn [negb orb]; [|auto].
    apply existsb_In in Eo. destruct HI as [H1 H2 H3]. cbn [sheap sinfo sowned] in *.
    set (c := firstn i (nth a h []) ++ v :: skipn (S i) (nth a h [])).
    assert (Lh : length (set_arr h a c) = length h) by (unfold set_arr; now apply length_update).
    split.
    + constructor; cbn [sheap sinfo sowned]; rewrite ?Lh; auto.
      destruct (h_arr s) as [b|]; [|assumption]. destruct H1 as (Hb & Hob & Hl). split; [assumption|].
      split; [assumption|]. rewrite nth_set_arr by assumption.
      destruct (Nat.eqb_spec b a) as [->|]; [contradiction|assumption].
    + unfold view. destruct (h_arr s) as [b|]; [|reflexivity]. destruct H1 as (Hb & Hob & Hl).
      rewrite nth_set_arr by assumption. destruct (Nat.eqb_spec b a) as [->|]; [contradiction|reflexivity].
  - rewrite app_nil_r. destruct HI as [H1 H2 H3]. cbn [sheap sinfo sowned] in *. split.
    + constructor; cbn [sheap sinfo sowned]; rewrite ?app_length; cbn [length]; [|eapply Forall_impl; [|exact H2]; cbv beta; intros; lia|lia].
      destruct (h_arr s) as [b|]; [|assumption]. destruct H1 as (Hb & Hob & Hl).
      split; [lia|]. split; [assumption|]. now rewrite app_nth1 by lia.
    + unfold view. destruct (h_arr s) as [b|]; [|reflexivity]. destruct H1 as (Hb & _). now rewrite app_nth1 by lia.
Qed.

Lemma srun_spec : forall es n0 st, sinv n0 st ->
  sinv n0 (srun grow st es) /\
  view (sheap (srun grow st es)) (sinfo (srun grow st es)) = view (sheap st) (sinfo st) ++ appended es.
Proof.
  induction es as [|e es IH]; intros n0 st HI.
  - unfold appended. cbn [srun fold_left map concat]. rewrite app_nil_r. auto.
  - cbn [srun fold_left]. destruct (sstep_spec n0 st e HI) as [H1 H2].
    destruct (IH n0 (sstep grow st e) H1) as [H3 H4]. split; [exact H3|].
    unfold srun in *. rewrite H4, H2, <- app_assoc. reflexivity.
Qed.

Lemma sinit_spec : forall h input,
  sinv (length h) (sinit grow h input) /\
  view (sheap (sinit grow h input)) (sinfo (sinit grow h input)) = view h input.
Proof.
  intros h input. unfold sinit.
  destruct (go_append grow h (Hdr None 0) (view h input)) as [h' s'] eqn:E.
  assert (HI : sinv (length h) (SSt h (Hdr None 0) [])) by (constructor; cbn; auto).
  destruct (append_spec _ _ _ _ _ _ _ HI E) as (H1 & H2 & _). cbn [sheap sinfo]. auto.
Qed.

(** the transcript never writes into an array it does not own *)
Lemma sappend_frame : forall n0 st x a, sinv n0 st -> (a < length (sheap st))%nat ->
  ~ In a (sowned (sstep grow st (EAppend x))) ->
  nth a (sheap (sstep grow st (EAppend x))) [] = nth a (sheap st) [].
Proof.
  intros n0 [h s o] x a HI Ha Hn. cbn [sstep sheap sinfo sowned] in *.
  destruct (go_append grow h s x) as [h' s'] eqn:E. cbn [sheap sinfo sowned] in *.
  destruct (append_spec _ _ _ _ _ _ _ HI E) as (_ & _ & H). auto.
Qed.
End SP.

(** ** every challenge is absorbed *)
(** the strings seen by the transcript: appended strings, and the decimal form of each challenge at
    the place where it was requested *)
Fixpoint weave (ts : list token) (cs : list Z) : list string :=
  match ts, cs with
  | TStr s :: r, _ => s :: weave r cs
  | TPrime :: r, c :: cs' | TInt :: r, c :: cs' => dec c :: weave r cs'
  | _, _ => []
  end.

Lemma run_tokens_weave : forall sha is_prime fuel ts acc len cs fin,
  run_tokens sha is_prime fuel acc len ts = Ret (cs, fin) ->
  fin = acc ++ weave ts cs /\ length cs = length (filter (fun t => match t with TStr _ => false | _ => true end) ts).
Proof.
  intros sha is_prime fuel. induction ts as [|[s| |] ts IH]; intros acc len cs fin H; cbn [run_tokens] in H.
  - injection H as <- <-. cbn. now rewrite app_nil_r.
  - apply IH in H. destruct H as [-> H]. cbn [weave filter]. rewrite <- app_assoc. auto.
  - destruct (FS_HashToPrime sha is_prime fuel acc len) as [c| |]; cbn [bind] in H; try discriminate.
    destruct (run_tokens sha is_prime fuel (acc ++ [dec c]) len ts) as [[cs' fin']| |] eqn:E; cbn [bind] in H; try discriminate.
    injection H as <- <-. apply IH in E. destruct E as [-> E]. cbn [weave filter length]. rewrite <- app_assoc, E. auto.
  - set (c := FS_HashToInt sha acc len) in *.
    destruct (run_tokens sha is_prime fuel (acc ++ [dec c]) len ts) as [[cs' fin']| |] eqn:E; cbn [bind] in H; try discriminate.
    injection H as <- <-. apply IH in E. destruct E as [-> E]. cbn [weave filter length]. rewrite <- app_assoc, E. auto.
Qed.
