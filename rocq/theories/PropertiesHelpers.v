(** Theorems for property C119: the helpers of hashes.go and common.go that no other function calls. *)
From Coq Require Import ZArith Znumtheory Bool Lia String List.
From Verif Require Import GoBig GoBigFacts Spec AccModel AccFacts StrFacts HashModel HashProofs PropertiesHash.
Import ListNotations.
Open Scope Z_scope.

Section Helpers.
Variable sha : string -> string.

Lemma sha_chain_spec : forall k x, length (sha_chain sha k x) = k /\ (forall d, (0 < k)%nat -> nth 0 (sha_chain sha k x) d = x) /\
  (forall i d, (S i < k)%nat -> nth (S i) (sha_chain sha k x) d = set_bytes (sha (big_bytes (nth i (sha_chain sha k x) d)))).
Proof.
  induction k as [|k IH]; intros x; cbn [sha_chain]; [split; [reflexivity|split; intros; lia]|].
  destruct (IH (SHA256ToInt sha (big_bytes x))) as (L & H & T). split; [cbn [length]; congruence|]. split; [reflexivity|].
  intros i d Hi. destruct i as [|i].
  - cbn [nth]. rewrite H by lia. reflexivity.
  - cbn [nth] in T |- *. apply T. lia.
Qed.
Lemma gcd_product : forall l n, Forall (fun x => Z.gcd x n = 1) l -> Z.gcd (product l) n = 1.
Proof.
  intros l n H. apply Zgcd_1_rel_prime. induction H as [|x l Hx _ IH]; [apply rel_prime_1|]. rewrite product_cons.
  apply rel_prime_sym, rel_prime_mult; apply rel_prime_sym; [now apply Zgcd_1_rel_prime|exact IH].
Qed.

(** What GenerateG prints: eight hashes, each of the bytes of the one before, multiplied modulo N. The warning comes
    exactly when the number is no unit; then one of the hashes shares a factor with N, and unless the number is zero
    that factor is a proper one. *)
Theorem C119_GenerateG_partial : let N := sN TrustedSetup in let '(g, warned) := GenerateG sha in
  exists hs, length hs = 8%nat /\ nth 0 hs 0 = set_bytes (sha N2048String) /\
    (forall i, (i < 7)%nat -> nth (S i) hs 0 = set_bytes (sha (big_bytes (nth i hs 0)))) /\
    g = product hs mod N /\ 0 <= g < N /\
    (warned = true <-> Z.gcd g N <> 1) /\
    (warned = true -> exists h, In h hs /\ Z.gcd h N <> 1) /\
    (warned = true -> g <> 0 -> exists p, 1 < p < N /\ (p | N)).
Proof.
  intros N. unfold GenerateG. change (parse_or_zero N2048String) with N.
  destruct C24_trusted_setup as (_ & _ & HG & _). change (sN TrustedSetup) with N in HG. assert (HN : 1 < N) by (set (G := sG TrustedSetup) in *; clearbody G N; lia). clear HG.
  assert (E : GenerateG_prod sha = product (sha_chain sha 8 (set_bytes (sha N2048String))) mod N).
  { unfold GenerateG_prod. change (parse_or_zero N2048String) with N. rewrite SetProduct_spec. unfold emod. rewrite Z.abs_eq by lia. reflexivity. }
  set (hs := sha_chain sha 8 (set_bytes (sha N2048String))) in *. exists hs.
  destruct (sha_chain_spec 8 (set_bytes (sha N2048String))) as (L & H & T). fold hs in L, H, T. rewrite E.
  set (g := product hs mod N) in *. assert (R : 0 <= g < N) by (apply Z.mod_pos_bound; lia). clearbody N.
  split; [exact L|]. split; [apply H; lia|]. split; [intros i Hi; apply T; lia|]. split; [reflexivity|]. split; [exact R|].
  assert (W : negb (Z.gcd N g =? 1) = true <-> Z.gcd g N <> 1) by (rewrite negb_true_iff, Z.eqb_neq, Z.gcd_comm; reflexivity).
  split; [exact W|]. split.
  - intros X. apply W in X. apply Exists_exists. destruct (Forall_Exists_dec (fun h => Z.gcd h N = 1) (fun h => Z.eq_dec (Z.gcd h N) 1) hs) as [A|A]; [exfalso|exact A].
    apply X. subst g. rewrite Z.gcd_mod by lia. rewrite Z.gcd_comm. now apply gcd_product.
  - intros X Hg. apply W in X. exists (Z.gcd g N). split; [|apply Z.gcd_divide_r]. pose proof (Z.gcd_nonneg g N). assert (Z.gcd g N <> 0) by (intros Q; apply Z.gcd_eq_0 in Q; lia).
    assert (Z.gcd g N <= g) by (apply Z.divide_pos_le; [lia|apply Z.gcd_divide_l]). lia.
Qed.
End Helpers.

(** "g and N not co-prime! We win the RSA-2048 challenge!" is also printed when no factor has been found: a hash that
    is zero makes the number zero. *)
Theorem C119_GenerateG_refuted : exists sha, snd (GenerateG sha) = true /\ fst (GenerateG sha) = 0 /\ Z.gcd (fst (GenerateG sha)) (sN TrustedSetup) = sN TrustedSetup.
Proof.
  exists (fun _ => ""%string). assert (E : GenerateG_prod (fun _ => ""%string) = 0) by (vm_compute; reflexivity).
  destruct C24_trusted_setup as (_ & _ & HG & _). unfold GenerateG. cbn [fst snd]. rewrite E. change (parse_or_zero N2048String) with (sN TrustedSetup).
  set (N := sN TrustedSetup) in *. set (G := sG TrustedSetup) in *. clearbody G N. rewrite Z.gcd_0_r, Z.abs_eq by lia.
  split; [apply negb_true_iff, Z.eqb_neq; lia|]. split; [reflexivity|]. rewrite Z.gcd_0_l. apply Z.abs_eq. lia.
Qed.
(** a hash that always gives the byte 3: the printed number is 3^8 *)
Example C119_GenerateG_case : GenerateG (fun _ => String (Ascii.ascii_of_nat 3) EmptyString) = (6561, false).
Proof. vm_compute. reflexivity. Qed.

(** PoseidonWith2Inputs: two inputs, taken modulo the field order, in this order; equal results come from equal
    residues or are a collision of Poseidon. *)
Theorem C119_PoseidonWith2Inputs : forall poseidon,
  (forall inputs, length inputs <> 2%nat <-> PoseidonWith2Inputs poseidon inputs = Panic) /\
  (forall a b, PoseidonWith2Inputs poseidon [a; b] = Ret (poseidon [a mod fr_modulus; b mod fr_modulus])) /\
  (forall a b a' b', PoseidonWith2Inputs poseidon [a; b] = PoseidonWith2Inputs poseidon [a'; b'] ->
     (a mod fr_modulus = a' mod fr_modulus /\ b mod fr_modulus = b' mod fr_modulus) \/
     exists l l', l <> l' /\ poseidon l = poseidon l' /\ length l = 2%nat /\ length l' = 2%nat /\ Forall (fun x => 0 <= x < fr_modulus) (l ++ l')) /\
  (forall a b k, PoseidonWith2Inputs poseidon [a + k * fr_modulus; b] = PoseidonWith2Inputs poseidon [a; b]).
Proof.
  intros poseidon. assert (HR : 0 < fr_modulus) by reflexivity.
  split; [intros [|a [|b [|c l]]]; cbn; split; intros H; reflexivity || congruence || discriminate|].
  split; [reflexivity|]. split.
  - intros a b a' b' E. unfold PoseidonWith2Inputs, ElementFromBigInt in E. set (r := fr_modulus) in *. clearbody r. injection E as E.
    destruct (Z.eq_dec (a mod r) (a' mod r)) as [A|A]; [destruct (Z.eq_dec (b mod r) (b' mod r)) as [B|B]; [left; now split|]|];
    (right; exists [a mod r; b mod r], [a' mod r; b' mod r]; split; [congruence|]; split; [exact E|]; split; [reflexivity|]; split; [reflexivity|]; repeat constructor; apply Z.mod_pos_bound; exact HR).
  - intros a b k. unfold PoseidonWith2Inputs, ElementFromBigInt. rewrite Z.mod_add by lia. reflexivity.
Qed.
Example C119_Poseidon_case : PoseidonWith2Inputs (fun l => match l with [a; b] => a - b | _ => 0 end) [7; fr_modulus + 2] = Ret 5.
Proof. reflexivity. Qed.

Print Assumptions C119_GenerateG_partial.
Print Assumptions C119_GenerateG_refuted.
Print Assumptions C119_PoseidonWith2Inputs.
