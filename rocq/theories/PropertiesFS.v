(** Theorems for properties C25-C27 (transcript). sha and is_prime are arbitrary. *)
From Coq Require Import ZArith Bool Lia String List.
From Verif Require Import GoBig GoBigFacts StrFacts HashModel FSModel FSProofs PropertiesHash.
Import ListNotations.
Open Scope Z_scope.

(** ** C25. [tokens] forgets how strings were grouped into calls; [weave ts cs] lists the strings of
    the history with the decimal form of every challenge put where it was requested. *)
Theorem C25_function_of_history : forall sha is_prime fuel,
  (* same strings in the same order: same challenges, same final transcript *)
  (forall t ops1 ops2, tokens ops1 = tokens ops2 -> run sha is_prime fuel t ops1 = run sha is_prime fuel t ops2) /\
  (* splitting a history in two calls sequences changes nothing *)
  (forall t ops1 ops2 cs t', run sha is_prime fuel t ops1 = Ret (cs, t') ->
     run sha is_prime fuel t (ops1 ++ ops2) = do (cs2, t2) <- run sha is_prime fuel t' ops2; Ret (cs ++ cs2, t2)) /\
  (* after any history the transcript holds the initial strings, then every appended string and
     every challenge handed out so far, in order; the next challenge is the hash of exactly that *)
  (forall input len ops cs t', run sha is_prime fuel (InitTranscript input len) ops = Ret (cs, t') ->
     info t' = input ++ weave (tokens ops) cs /\ maxlength t' = len /\
     run sha is_prime fuel t' [OpInt] =
       (let c := FS_HashToInt sha (input ++ weave (tokens ops) cs) len in Ret ([c], Append t' (dec c))) /\
     run sha is_prime fuel t' [OpPrime] =
       (do c <- FS_HashToPrime sha is_prime fuel (input ++ weave (tokens ops) cs) len; Ret ([c], Append t' (dec c)))).
Proof.
  intros sha is_prime fuel. split; [|split].
  - intros t ops1 ops2 E. rewrite !run_spec, E. reflexivity.
  - intros t ops1 ops2 cs t' H. rewrite run_spec in *. unfold tokens in *. rewrite map_app, concat_app, run_tokens_app.
    destruct (run_tokens sha is_prime fuel (info t) (maxlength t) (concat (map tokens1 ops1))) as [[cs1 mid]| |];
      cbn [bind] in *; try discriminate. injection H as <- <-. rewrite run_spec. cbn [info maxlength]. unfold tokens.
    destruct (run_tokens sha is_prime fuel mid (maxlength t) (concat (map tokens1 ops2))) as [[cs2 fin]| |]; reflexivity.
  - intros input len ops cs t' H. rewrite run_spec in H. cbn [InitTranscript info maxlength] in H.
    destruct (run_tokens sha is_prime fuel input len (tokens ops)) as [[cs1 mid]| |] eqn:E; cbn [bind] in H; try discriminate.
    injection H as -> <-. apply run_tokens_weave in E. destruct E as [-> _]. cbn [info maxlength].
    split; [reflexivity|]. split; [reflexivity|]. split; [reflexivity|].
    cbn [run]. unfold GetPrimeChallenge. cbn [info maxlength].
    destruct (FS_HashToPrime sha is_prime fuel (input ++ weave (tokens ops) cs) len); reflexivity.
Qed.
Example C25_case : exists c1 c2 t, run toy_sha toy_prime 300 (InitTranscript ["a"%string] Default)
   [OpAppend "b"; OpAppendSlice ["c"; "d"]; OpInt; OpAppend "e"; OpPrime]%string = Ret ([c1; c2], t)
   /\ info t = ["a"; "b"; "c"; "d"; dec c1; "e"; dec c2]%string.
Proof. eexists _, _, _. vm_compute. split; reflexivity. Qed.

(** memory: for every growth policy of append, every heap and every caller slice, and whatever the
    rest of the program writes into its own arrays afterwards, the transcript holds the strings the
    caller's slice held at initialisation followed by the strings appended; arrays that existed
    before are never taken over by the transcript, nor written by it *)
Theorem C25_init_copies : forall grow (h : heap) (input : header) es,
  let st := srun grow (sinit grow h input) es in
  view (sheap st) (sinfo st) = view h input ++ appended es /\
  Forall (fun a => (length h <= a)%nat) (sowned st) /\
  (forall x a, (a < length h)%nat -> nth a (sheap (sstep grow st (EAppend x))) [] = nth a (sheap st) []).
Proof.
  intros grow h input es. cbv zeta. destruct (sinit_spec grow h input) as [I0 V0].
  destruct (srun_spec grow es _ _ I0) as [I1 V1]. split; [|split].
  - rewrite V1, V0. reflexivity.
  - eapply Forall_impl; [|exact (si_owned _ _ I1)]. cbv beta. intros; lia.
  - intros x a Ha. destruct (sstep_spec grow (length h) (srun grow (sinit grow h input) es) (EAppend x) I1) as [I2 _].
    eapply sappend_frame; [exact I1|pose proof (si_len _ _ I1); lia|].
    intros Hin. pose proof (si_owned _ _ I2) as F. rewrite Forall_forall in F. specialize (F a Hin). cbv beta in F. lia.
Qed.
(** the caller overwrites its slice after initialisation *)
Example C25_copy_case : let h := [["x"; "y"]]%string in let g := fun _ n => n in
  let st := srun g (sinit g h (Hdr (Some 0%nat) 2)) [EWrite 0 0 "z"%string; EAppend ["w"%string]] in
  view (sheap st) (sinfo st) = ["x"; "y"; "w"]%string /\ nth 0 (sheap st) [] = ["z"; "y"]%string.
Proof. vm_compute. split; reflexivity. Qed.

(** ** C26 *)
Theorem C26_prime_challenge_bound_partial : forall sha is_prime fuel input,
  (forall s, String.length (sha s) = 32%nat) ->
  is_prime (2 ^ 239) = false ->
  (forall c, FS_HashToPrime sha is_prime fuel input Max252 = Ret c ->
     is_prime c = true /\ 0 <= c < 2 ^ 239 /\ c < fr_modulus) /\
  (* integer challenges: the bound is missed by one *)
  0 <= FS_HashToInt sha input Max252 <= 2 ^ 239 /\ FS_HashToInt sha input Max252 < fr_modulus /\
  (FS_HashToInt sha input Max252 = 2 ^ 239 <-> set_bytes (sha (written input)) = 2 ^ 239) /\
  (* other lengths: the digest itself *)
  (forall len, len <> Max252 -> FS_HashToInt sha input len = set_bytes (sha (written input)) /\
     0 <= FS_HashToInt sha input len < 2 ^ 256).
Proof.
  intros sha is_prime fuel input Hlen Hp.
  assert (B : 2 ^ 239 < fr_modulus) by (vm_compute; reflexivity).
  split; [|split; [|split; [|split]]].
  - intros c H. apply fs_prime_ret in H. destruct H as (H1 & s & H2). split; [assumption|].
    pose proof (wrap_max_range s) as [R _]. rewrite <- H2 in R.
    assert (c <> 2 ^ 239) by (intros ->; congruence). lia.
  - apply wrap_max_range.
  - pose proof (wrap_max_range (sha (written input))) as [R _]. unfold FS_HashToInt. lia.
  - apply wrap_max_range.
  - intros len Hl. assert (E : FS_HashToInt sha input len = set_bytes (sha (written input))).
    { unfold FS_HashToInt, wrapNumber. destruct (len =? Default); [reflexivity|].
      destruct (Z.eqb_spec len Max252); [contradiction|reflexivity]. }
    split; [exact E|]. rewrite E. pose proof (set_bytes_bound (sha (written input))) as R. rewrite Hlen in R. exact R.
Qed.
(** a 32-byte digest equal to 2^239 gives an integer challenge that is not below 2^239 *)
Theorem C26_int_challenge_bound_refuted : exists (sha : string -> string) input,
  (forall s, String.length (sha s) = 32%nat) /\ ~ FS_HashToInt sha input Max252 < 2 ^ 239.
Proof.
  set (zero := Ascii.zero).
  exists (fun _ => String zero (String zero (big_bytes (2 ^ 239)))), []. split.
  - intros _. vm_compute. reflexivity.
  - vm_compute. discriminate.
Qed.
Example C26_case : exists (sha : string -> string), (forall s, String.length (sha s) = 32%nat) /\
  FS_HashToPrime sha (fun z => z =? 7) 5 ["a"%string] Max252 = Ret 7.
Proof.
  exists (fun _ => big_bytes (2 ^ 255 + 7)). split; [intros _; vm_compute; reflexivity|vm_compute; reflexivity].
Qed.

(** ** C27: refuted for every hash function; strings are concatenated without separators *)
Theorem C27_transcript_injective_refuted : exists l1 l2 : list string, l1 <> l2 /\
  written l1 = written l2 /\
  forall sha is_prime fuel len,
    FS_HashToInt sha l1 len = FS_HashToInt sha l2 len /\
    FS_HashToPrime sha is_prime fuel l1 len = FS_HashToPrime sha is_prime fuel l2 len.
Proof. exists ["12"; "3"]%string, ["1"; "23"]%string. split; [discriminate|]. split; [reflexivity|]. intros. split; reflexivity. Qed.
(** what holds: lists of strings with the same lengths are told apart *)
Theorem C27_transcript_injective_partial : forall l1 l2 : list string,
  map String.length l1 = map String.length l2 -> written l1 = written l2 -> l1 = l2.
Proof. exact written_inj. Qed.
Example C27_case : written ["12"; "3"]%string <> written ["12"; "4"]%string.
Proof. vm_compute. discriminate. Qed.

Print Assumptions C25_function_of_history.
Print Assumptions C25_init_copies.
Print Assumptions C26_prime_challenge_bound_partial.
Print Assumptions C26_int_challenge_bound_refuted.
Print Assumptions C27_transcript_injective_refuted.
Print Assumptions C27_transcript_injective_partial.
