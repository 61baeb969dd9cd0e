(** Fermat's little theorem and Pocklington's primality criterion over Z. *)
Require Import ZArith Lia Bool List Znumtheory Zpow_facts Permutation.
Import ListNotations.
Open Scope Z_scope.

Lemma mod_eq_divide a b n : 0 < n -> (a mod n = b mod n <-> (n | a - b)).
Proof.
  intros Hn. split.
  - intros H. exists (a / n - b / n). pose proof (Z.div_mod a n ltac:(lia)). pose proof (Z.div_mod b n ltac:(lia)). lia.
  - intros [k Hk]. replace a with (b + k * n) by lia. apply Z_mod_plus_full.
Qed.

(** ** Fermat *)
Definition prod (l : list Z) : Z := fold_right Z.mul 1 l.
Definition nonzero_residues (p : Z) : list Z := map Z.of_nat (seq 1 (Z.to_nat (p - 1))).

Lemma in_residues p x : In x (nonzero_residues p) <-> 0 < x < p.
Proof.
  unfold nonzero_residues. rewrite in_map_iff. split.
  - intros (n & <- & H). apply in_seq in H. lia.
  - intros H. exists (Z.to_nat x). split; [lia|]. apply in_seq. lia.
Qed.
Lemma nodup_residues p : NoDup (nonzero_residues p).
Proof. apply FinFun.Injective_map_NoDup; [intros a b; lia|apply seq_NoDup]. Qed.
Lemma nodup_map_inj (f : Z -> Z) l : NoDup l -> (forall x y, In x l -> In y l -> f x = f y -> x = y) -> NoDup (map f l).
Proof.
  induction 1 as [|a l Ha Hl IH]; intros Hf; cbn; constructor.
  - intros Hi. apply in_map_iff in Hi as (y & E & Hy). apply Ha.
    replace a with y; [assumption|]. apply Hf; [right; assumption|left; reflexivity|assumption].
  - apply IH. intros x y Hx Hy. apply Hf; right; assumption.
Qed.
Lemma prod_perm l l' : Permutation l l' -> prod l = prod l'.
Proof. unfold prod. induction 1; cbn [fold_right]; [reflexivity|congruence|ring|congruence]. Qed.
Lemma prod_map_mod a p l : 0 < p ->
  prod (map (fun x => (a * x) mod p) l) mod p = (a ^ Z.of_nat (length l) * prod l) mod p.
Proof.
  intros Hp. induction l as [|x l IH].
  - cbn [map prod fold_right length]. change (Z.of_nat 0) with 0. rewrite Z.pow_0_r. reflexivity.
  - cbn [map prod fold_right length]. fold (prod (map (fun x => (a * x) mod p) l)) (prod l).
    rewrite Nat2Z.inj_succ, Z.pow_succ_r by lia.
    rewrite Z.mul_mod_idemp_l, <- Z.mul_mod_idemp_r, IH, Z.mul_mod_idemp_r by lia. f_equal. ring.
Qed.
Lemma prod_residues_coprime p : prime p -> ~ (p | prod (nonzero_residues p)).
Proof.
  intros Hp. assert (G : forall l, (forall x, In x l -> 0 < x < p) -> ~ (p | prod l)).
  { induction l as [|x l IH]; intros H D; cbn in D.
    - apply Z.divide_1_r_nonneg in D; destruct Hp; lia.
    - apply prime_mult in D; [|assumption]. destruct D as [D|D].
      + apply Z.divide_pos_le in D; [|apply (H x); left; reflexivity]. specialize (H x (or_introl eq_refl)). lia.
      + apply IH; [|exact D]. intros y Hy. apply H. right. assumption. }
  apply G. intros x. apply in_residues.
Qed.

Theorem fermat p a : prime p -> ~ (p | a) -> a ^ (p - 1) mod p = 1.
Proof.
  intros Hp Ha. assert (Hp1 : 1 < p) by (destruct Hp; lia).
  set (l := nonzero_residues p). set (f := fun x => (a * x) mod p).
  assert (Perm : Permutation l (map f l)).
  { apply Permutation_sym, NoDup_Permutation_bis.
    - apply nodup_map_inj; [apply nodup_residues|]. intros x y Hx Hy E. apply in_residues in Hx, Hy.
      unfold f in E. apply mod_eq_divide in E; [|lia]. rewrite <- Z.mul_sub_distr_l in E.
      apply prime_mult in E; [|assumption]. destruct E as [E|E]; [contradiction|].
      destruct E as [k Hk]. assert (k = 0) by nia. lia.
    - rewrite map_length. lia.
    - intros y Hy. apply in_map_iff in Hy as (x & <- & Hx). apply in_residues in Hx. apply in_residues. unfold f.
      pose proof (Z.mod_pos_bound (a * x) p ltac:(lia)). assert ((a * x) mod p <> 0); [|lia].
      intros E. apply Z.mod_divide in E; [|lia]. apply prime_mult in E; [|assumption]. destruct E as [E|E]; [contradiction|].
      apply Z.divide_pos_le in E; lia. }
  assert (E : prod l mod p = (a ^ Z.of_nat (length l) * prod l) mod p).
  { rewrite <- prod_map_mod by lia. fold f. rewrite (prod_perm _ _ Perm). reflexivity. }
  assert (L : Z.of_nat (length l) = p - 1) by (unfold l, nonzero_residues; rewrite map_length, seq_length; lia).
  rewrite L in E. apply mod_eq_divide in E; [|lia].
  replace (prod l - a ^ (p - 1) * prod l) with ((1 - a ^ (p - 1)) * prod l) in E by ring.
  apply prime_mult in E; [|assumption]. destruct E as [E|E]; [|exfalso; exact (prod_residues_coprime p Hp E)].
  apply mod_eq_divide in E; [|lia]. rewrite <- E. apply Z.mod_small. lia.
Qed.

(** ** Powers modulo q *)
Lemma pow_mod_mul b q i j : 0 <= i -> 0 <= j -> 1 < q -> b ^ i mod q = 1 -> b ^ (i * j) mod q = 1.
Proof.
  intros Hi Hj Hq H. rewrite Z.pow_mul_r by lia. rewrite Zpower_mod, H, Z.pow_1_l by lia. apply Z.mod_small. lia.
Qed.
(** If b^i = b^j = 1 then b^gcd(i,j) = 1, for b a unit. *)
Lemma pow_mod_gcd b q i j : 1 < q -> 0 < i -> 0 < j -> b ^ i mod q = 1 -> b ^ j mod q = 1 -> b ^ Z.gcd i j mod q = 1.
Proof.
  intros Hq Hi Hj Ei Ej. destruct (Z.gcd_bezout i j _ eq_refl) as (u & v & E).
  set (g := Z.gcd i j) in *. assert (Hg : 0 <= g) by apply Z.gcd_nonneg.
  (* u*i + v*j = g; make both exponents non-negative *)
  set (k := Z.abs u + Z.abs v). assert (Hk : 0 <= k) by lia.
  assert (Hkj : k <= k * j) by (rewrite <- (Z.mul_1_r k) at 1; apply Z.mul_le_mono_nonneg_l; lia).
  assert (Hki : k <= k * i) by (rewrite <- (Z.mul_1_r k) at 1; apply Z.mul_le_mono_nonneg_l; lia).
  assert (U : 0 <= u + k * j) by lia. assert (V : 0 <= v + k * i) by lia.
  assert (P1 : 0 <= i * (u + k * j)) by (apply Z.mul_nonneg_nonneg; lia).
  assert (P2 : 0 <= j * (v + k * i)) by (apply Z.mul_nonneg_nonneg; lia).
  assert (P3 : 0 <= i * (k * j)) by (apply Z.mul_nonneg_nonneg; lia).
  assert (P4 : 0 <= j * (k * i)) by (apply Z.mul_nonneg_nonneg; lia).
  assert (H : b ^ (g + i * (k * j) + j * (k * i)) mod q = b ^ g mod q).
  { rewrite !Z.pow_add_r by lia. rewrite Z.mul_mod, (pow_mod_mul b q j (k * i)) by (lia || assumption).
    rewrite Z.mul_1_r, Z.mod_mod by lia.
    rewrite Z.mul_mod, (pow_mod_mul b q i (k * j)) by (lia || assumption).
    rewrite Z.mul_1_r, Z.mod_mod by lia. reflexivity. }
  rewrite <- H. replace (g + i * (k * j) + j * (k * i)) with (i * (u + k * j) + j * (v + k * i)) by lia.
  rewrite Z.pow_add_r by lia. rewrite Z.mul_mod, !pow_mod_mul by (lia || assumption). apply Z.mod_small. lia.
Qed.

Lemma pow_mod_inv_unit b q i : 1 < q -> 0 < i -> b ^ i mod q = 1 -> ~ (q | b).
Proof.
  intros Hq Hi H D. assert (b ^ i mod q = 0).
  { replace i with (Z.succ (i - 1)) by lia. rewrite Z.pow_succ_r by lia. apply Z.mod_divide; [lia|]. apply Z.divide_mul_l. assumption. }
  lia.
Qed.

(** A divisor of r^e other than r^e divides r^(e-1). *)
Lemma divisor_prime_power r e : prime r -> 0 <= e -> forall g, 0 < g -> (g | r ^ (e + 1)) -> g <> r ^ (e + 1) -> (g | r ^ e).
Proof.
  intros Hr He. assert (1 < r) by (destruct Hr; lia). revert e He.
  apply (natlike_ind (fun e => forall g, 0 < g -> (g | r ^ (e + 1)) -> g <> r ^ (e + 1) -> (g | r ^ e))).
  - intros g Hg D N. change (0 + 1) with 1 in *. rewrite Z.pow_1_r in D, N. destruct (prime_divisors r Hr g D) as [C|[C|[C|C]]]; try lia.
    subst. apply Z.divide_1_l.
  - intros e He IH g Hg D N. replace (Z.succ e + 1) with (Z.succ (e + 1)) in * by lia. rewrite Z.pow_succ_r in D, N |- * by lia.
    destruct (Z_lt_ge_dec 1 (Z.gcd g r)) as [G|G].
    + assert (Dr : (r | g)).
      { destruct (prime_divisors r Hr (Z.gcd g r) (Z.gcd_divide_r g r)) as [C|[C|[C|C]]]; try lia.
        rewrite <- C. apply Z.gcd_divide_l. }
      destruct Dr as [h ->]. rewrite (Z.mul_comm h r) in *. apply Z.mul_divide_mono_l.
      apply IH; [nia| |].
      * apply Z.mul_divide_cancel_l in D; [assumption|lia].
      * intros ->. apply N. reflexivity.
    + assert (Z.gcd g r = 1).
      { pose proof (Z.gcd_nonneg g r). assert (Z.gcd g r <> 0); [|lia]. intros E. apply Z.gcd_eq_0_r in E. lia. }
      apply Gauss with (b := r); [|apply Zgcd_1_rel_prime; assumption].
      apply Gauss in D; [|apply Zgcd_1_rel_prime; assumption].
      replace (r * r ^ e) with (r ^ (e + 1)) by (rewrite <- Z.pow_succ_r by lia; f_equal; lia).
      apply Z.divide_mul_r. assumption.
Qed.

(** Pocklington, for one prime power r^(e+1) dividing n-1. *)
Lemma pocklington_step n q r e a : 1 < n -> prime q -> (q | n) -> prime r -> 0 <= e -> (r ^ (e + 1) | n - 1) ->
  a ^ (n - 1) mod n = 1 -> Z.gcd (a ^ ((n - 1) / r) mod n - 1) n = 1 -> (r ^ (e + 1) | q - 1).
Proof.
  intros Hn Hq Dq Hr He D E G. assert (Hq1 : 1 < q) by (destruct Hq; lia). assert (Hr1 : 1 < r) by (destruct Hr; lia).
  destruct D as [m Hm]. set (R := r ^ (e + 1)) in *. assert (HR : 0 < R) by (apply Z.pow_pos_nonneg; lia).
  assert (Hmpos : 0 < m) by nia.
  assert (ER : R = r * r ^ e) by (unfold R; rewrite Z.pow_add_r, Z.pow_1_r by lia; ring).
  assert (Hre : 0 < r ^ e) by (apply Z.pow_pos_nonneg; lia).
  assert (Hmodq : forall x, (x mod n) mod q = x mod q).
  { intros x. destruct Dq as [k ->]. assert (0 < k) by nia. rewrite (Z.mul_comm k q), Z.rem_mul_r by lia.
    rewrite (Z.mul_comm q), Z_mod_plus_full, Z.mod_mod by lia. reflexivity. }
  assert (Eq : a ^ (n - 1) mod q = 1) by (rewrite <- Hmodq, E; apply Z.mod_small; lia).
  set (b := a ^ m).
  assert (Eb : b ^ R mod q = 1) by (unfold b; rewrite <- Z.pow_mul_r by lia; rewrite <- Hm; assumption).
  assert (Nb : ~ (q | a)) by (apply (pow_mod_inv_unit a q (n - 1)); try lia; assumption).
  assert (Ediv : (n - 1) / r = m * r ^ e).
  { rewrite Hm, ER. replace (m * (r * r ^ e)) with (m * r ^ e * r) by ring. apply Z.div_mul. lia. }
  assert (Nbe : b ^ (r ^ e) mod q <> 1).
  { intros C. unfold b in C. rewrite <- Z.pow_mul_r in C by lia. rewrite <- Ediv, <- Hmodq in C.
    assert (DD : (q | Z.gcd (a ^ ((n - 1) / r) mod n - 1) n)).
    { apply Z.gcd_greatest; [|assumption]. apply (mod_eq_divide _ 1 q); [lia|]. rewrite C. symmetry. apply Z.mod_small. lia. }
    rewrite G in DD. apply Z.divide_1_r_nonneg in DD; lia. }
  assert (Ef : b ^ (q - 1) mod q = 1).
  { apply fermat; [assumption|]. unfold b. intros C.
    assert (forall k, 0 <= k -> ~ (q | a ^ k)) as X.
    { apply natlike_ind.
      - rewrite Z.pow_0_r. intros D1. apply Z.divide_1_r_nonneg in D1; lia.
      - intros k Hk IH D1. rewrite Z.pow_succ_r in D1 by lia. apply prime_mult in D1; [|assumption]. tauto. }
    apply (X m); [lia|assumption]. }
  pose proof (pow_mod_gcd b q R (q - 1) Hq1 HR ltac:(lia) Eb Ef) as Eg.
  destruct (Z.eq_dec (Z.gcd R (q - 1)) R) as [C|C].
  - rewrite <- C. apply Z.gcd_divide_r.
  - exfalso. apply Nbe. assert (Dg : (Z.gcd R (q - 1) | r ^ e)).
    { apply divisor_prime_power; auto; [|apply Z.gcd_divide_l].
      pose proof (Z.gcd_nonneg R (q - 1)). assert (Z.gcd R (q - 1) <> 0); [|lia]. intros Z0. apply Z.gcd_eq_0_l in Z0. lia. }
    destruct Dg as [k Hk]. rewrite Hk, Z.mul_comm. apply pow_mod_mul; try assumption; [apply Z.gcd_nonneg|].
    destruct (Z_le_gt_dec 0 k) as [L|L]; [assumption|exfalso].
    assert (M : k * Z.gcd R (q - 1) <= 0) by (apply Z.mul_nonpos_nonneg; [apply Z.lt_le_incl, Z.gt_lt, L|apply Z.gcd_nonneg]).
    rewrite <- Hk in M. apply (Z.lt_irrefl 0). apply Z.lt_le_trans with (r ^ e); assumption.
Qed.

(** Every n > 1 has a prime divisor, at most sqrt n when n is composite. *)
Lemma prime_or_small_divisor n : 1 < n -> prime n \/ exists q, prime q /\ (q | n) /\ q * q <= n.
Proof.
  intros Hn. destruct (prime_dec n) as [Hp|Hp]; [left; assumption|right].
  assert (G : forall m, 0 <= m -> forall n, 1 < n <= m -> exists q, prime q /\ (q | n)).
  { apply (natlike_ind (fun m => forall n, 1 < n <= m -> exists q, prime q /\ (q | n))); [intros; lia|].
    intros m Hm IH k Hk. destruct (prime_dec k) as [Pk|Pk]; [exists k; split; [assumption|apply Z.divide_refl]|].
    apply not_prime_divide in Pk as (d & Hd & Dd); [|lia]. destruct (IH d) as (q & Q1 & Q2); [lia|].
    exists q. split; [assumption|]. apply Z.divide_trans with d; assumption. }
  apply not_prime_divide in Hp as (d & Hd & [c Dd]); [|assumption].
  assert (1 < c < n) by nia.
  destruct (Z_le_gt_dec d c) as [L|L].
  - destruct (G d ltac:(lia) d ltac:(lia)) as (q & Q1 & Q2). exists q. split; [assumption|].
    split; [apply Z.divide_trans with d; [assumption|exists c; assumption]|].
    apply Z.divide_pos_le in Q2; [|lia]. assert (1 < q) by (destruct Q1; lia). nia.
  - destruct (G c ltac:(lia) c ltac:(lia)) as (q & Q1 & Q2). exists q. split; [assumption|].
    split; [apply Z.divide_trans with c; [assumption|exists d; lia]|].
    apply Z.divide_pos_le in Q2; [|lia]. assert (1 < q) by (destruct Q1; lia). nia.
Qed.

Lemma pocklington n F : 1 < n -> n < F * F -> 0 < F -> (forall q, prime q -> (q | n) -> (F | q - 1)) -> prime n.
Proof.
  intros Hn HF HF0 H. destruct (prime_or_small_divisor n Hn) as [P|(q & Q1 & Q2 & Q3)]; [assumption|exfalso].
  specialize (H q Q1 Q2). assert (1 < q) by (destruct Q1; lia). apply Z.divide_pos_le in H; [|lia]. nia.
Qed.

(** Trial division, for the leaves of the certificates. *)
Fixpoint no_divisor (k : nat) (d n : Z) : bool :=
  match k with O => true | S k' => negb (n mod d =? 0) && no_divisor k' (d + 2) n end.
Lemma no_divisor_spec k : forall d n, no_divisor k d n = true -> forall x, d <= x < d + 2 * Z.of_nat k -> 0 < d -> (x - d) mod 2 = 0 -> ~ (x | n).
Proof.
  induction k; intros d n H x Hx Hd Hm D; [lia|]. cbn [no_divisor] in H. apply andb_prop in H as [H1 H2].
  destruct (Z.eq_dec x d) as [->|N].
  - apply negb_true_iff, Z.eqb_neq in H1. apply H1. apply Z.mod_divide; [lia|assumption].
  - apply (IHk (d + 2) n H2 x); try lia; try assumption.
    + pose proof (Z.div_mod (x - d) 2 ltac:(lia)). lia.
    + replace (x - (d + 2)) with (x - d + (-1) * 2) by lia. rewrite Z_mod_plus_full. assumption.
Qed.
Lemma trial_division n k : 2 < n -> Z.odd n = true -> no_divisor k 3 n = true -> n < (3 + 2 * Z.of_nat k) * (3 + 2 * Z.of_nat k) -> prime n.
Proof.
  intros Hn Ho H L. destruct (prime_or_small_divisor n ltac:(lia)) as [P|(q & Q1 & Q2 & Q3)]; [assumption|exfalso].
  assert (1 < q) by (destruct Q1; lia).
  assert (q <> 2). { intros ->. destruct Q2 as [c ->]. rewrite Z.odd_mul in Ho. cbn in Ho. rewrite andb_false_r in Ho. discriminate. }
  assert (Oq : Z.odd q = true).
  { destruct (Z.odd q) eqn:E; [reflexivity|]. exfalso. destruct Q2 as [c ->]. rewrite Z.odd_mul, E, andb_false_r in Ho. discriminate. }
  apply (no_divisor_spec k 3 n H q); auto; try lia; [nia|].
  rewrite Zmod_odd, Z.odd_sub, Oq. reflexivity.
Qed.

(** Checkers for vm_compute. *)
Definition pock_check (n r e a : Z) : bool :=
  ((n - 1) mod (r ^ (e + 1)) =? 0) && (Zpow_mod a (n - 1) n =? 1) && (Z.gcd (Zpow_mod a ((n - 1) / r) n - 1) n =? 1).
Lemma pock_check_spec n r e a q : pock_check n r e a = true -> 1 < n -> prime q -> (q | n) -> prime r -> 0 <= e -> (r ^ (e + 1) | q - 1).
Proof.
  unfold pock_check. intros H Hn Hq Dq Hr He. apply andb_prop in H as [H H3]. apply andb_prop in H as [H1 H2].
  apply Z.eqb_eq in H1, H2, H3. rewrite Zpow_mod_correct in H2, H3 by lia.
  assert (1 < r) by (destruct Hr; lia). assert (0 < r ^ (e + 1)) by (apply Z.pow_pos_nonneg; lia).
  apply (pocklington_step n q r e a); auto. apply Z.mod_divide; [lia|assumption].
Qed.
