(** Primality of the two moduli of the code base (algebra/primefield/src/proth_field.rs:17-20 and
    algebra/elliptic-curve/src/scalar_field.rs:17-18), certified by Pocklington chains whose
    arithmetic is checked by the kernel, and the multiplicative order of the declared generators. *)
Require Import ZArith Lia Bool List Znumtheory Zpow_facts.
Require Import Verif.NumberTheory.
Import ListNotations.
Open Scope Z_scope.

(** 0x0800000000000011 0000…0001 = 2^251 + 17 * 2^192 + 1. *)
Definition p_field : Z := 0x0800000000000011000000000000000000000000000000000000000000000001.
(** The order of the curve group. *)
Definition p_order : Z := 0x0800000000000010ffffffffffffffffb781126dcae7b2321e66a241adc64d2f.

Ltac trial k := apply (trial_division _ (Z.to_nat k)); [lia|reflexivity|vm_compute; reflexivity|
  reflexivity].

Lemma prime_67 : prime 67. Proof. trial 5. Qed.
Lemma prime_5 : prime 5. Proof. trial 1. Qed.
Lemma prime_7 : prime 7. Proof. trial 1. Qed.
Lemma prime_2887 : prime 2887. Proof. trial 30. Qed.
Lemma prime_565787 : prime 565787. Proof. trial 380. Qed.
Lemma prime_98714381 : prime 98714381. Proof. trial 4970. Qed.
Lemma prime_166848103 : prime 166848103. Proof. trial 6460. Qed.

Lemma pock1 n r a : prime r -> pock_check n r 0 a = true -> 1 < n -> n < r * r -> prime n.
Proof.
  intros Hr C Hn L. apply (pocklington n r Hn L). { destruct Hr; lia. }
  intros q Q1 Q2. pose proof (pock_check_spec n r 0 a q C Hn Q1 Q2 Hr ltac:(lia)) as D.
  change (0 + 1) with 1 in D. rewrite Z.pow_1_r in D. exact D.
Qed.

Lemma pock2 n r s a : prime r -> prime s -> r <> s -> pock_check n r 0 a = true -> pock_check n s 0 a = true ->
  1 < n -> n < (r * s) * (r * s) -> prime n.
Proof.
  intros Hr Hs N C D Hn L. apply (pocklington n (r * s) Hn L). { destruct Hr, Hs; nia. }
  intros q Q1 Q2. pose proof (pock_check_spec n r 0 a q C Hn Q1 Q2 Hr ltac:(lia)) as E1.
  pose proof (pock_check_spec n s 0 a q D Hn Q1 Q2 Hs ltac:(lia)) as E2.
  change (0 + 1) with 1 in *. rewrite Z.pow_1_r in *. destruct E1 as [k E1]. rewrite E1 in *.
  rewrite Z.mul_comm in E2. apply Gauss in E2.
  - destruct E2 as [j ->]. exists j. ring.
  - apply rel_prime_sym, prime_rel_prime; [assumption|]. intros F. apply prime_div_prime in F; auto.
Qed.

Lemma prime_34 : prime 11753132899.
Proof. apply (pock2 _ 2887 67 2); [apply prime_2887|apply prime_67|discriminate|vm_compute; reflexivity..|reflexivity|reflexivity]. Qed.
Lemma prime_44 : prime 12904939923103.
Proof. apply (pock1 _ 11753132899 2); [apply prime_34|vm_compute; reflexivity|reflexivity|reflexivity]. Qed.
Lemma prime_35 : prime 28547348873.
Proof. apply (pock1 _ 565787 2); [apply prime_565787|vm_compute; reflexivity|reflexivity|reflexivity]. Qed.
Lemma prime_71 : prime 1803099112058626586861.
Proof. apply (pock1 _ 12904939923103 2); [apply prime_44|vm_compute; reflexivity|reflexivity|reflexivity]. Qed.
(** Modular powers with a cheap reduction: [red] only has to preserve the residue class, which the
    two reductions below do for every quotient estimate, so nothing need be proved about their range. *)
Fixpoint powr (red : Z -> Z) (a : Z) (e : positive) : Z :=
  match e with
  | xH => a
  | xO e' => let s := powr red a e' in red (s * s)
  | xI e' => let s := powr red a e' in red (a * red (s * s))
  end.
Definition keeps (red : Z -> Z) (n : Z) : Prop := forall x, red x mod n = x mod n.
Lemma powr_spec red n a e : keeps red n -> powr red a e mod n = a ^ Zpos e mod n.
Proof.
  intros K. assert (M : forall x y x' y', x mod n = x' mod n -> y mod n = y' mod n -> (x * y) mod n = (x' * y') mod n).
  { intros x y x' y' E1 E2. rewrite Zmult_mod, E1, E2, <- Zmult_mod. reflexivity. }
  induction e; cbn [powr].
  - rewrite K. replace (Z.pos e~1) with (1 + (Z.pos e + Z.pos e)) by lia. rewrite !Z.pow_add_r, Z.pow_1_r by lia.
    apply M; [reflexivity|]. rewrite K. apply M; assumption.
  - rewrite K. replace (Z.pos e~0) with (Z.pos e + Z.pos e) by lia. rewrite Z.pow_add_r by lia. apply M; assumption.
  - rewrite Z.pow_1_r. reflexivity.
Qed.
Definition barrett (n mu k : Z) (x : Z) : Z := x - n * Z.shiftr (Z.shiftr x (k - 1) * mu) (k + 1).
Lemma keeps_barrett n mu k : keeps (barrett n mu k) n.
Proof. intros x. unfold barrett. rewrite Z.mul_comm, <- (Z_mod_plus_full (x - _) (Z.shiftr (Z.shiftr x (k - 1) * mu) (k + 1))). f_equal. ring. Qed.
(** 2^251 = - 17 * 2^192 - 1 modulo the field prime. *)
Definition proth_fold (x : Z) : Z := let h := Z.shiftr x 251 in x - Z.shiftl h 251 - 17 * Z.shiftl h 192 - h.
Definition proth_red (x : Z) : Z := proth_fold (proth_fold (proth_fold (proth_fold (proth_fold x)))).
Lemma keeps_proth : keeps proth_red p_field.
Proof.
  assert (K : keeps proth_fold p_field).
  { intros x. unfold proth_fold. rewrite !Z.shiftl_mul_pow2 by lia. set (h := Z.shiftr x 251).
    rewrite <- (Z_mod_plus_full _ h p_field). f_equal. replace p_field with (2 ^ 251 + 17 * 2 ^ 192 + 1) by reflexivity. ring. }
  intros x. unfold proth_red. rewrite !K. reflexivity.
Qed.
Lemma pow_pow a x y b n c : 0 < n -> 0 <= x -> 0 <= y -> a ^ x mod n = b -> b ^ y mod n = c -> a ^ (x * y) mod n = c.
Proof. intros Hn Hx Hy E1 E2. rewrite Z.pow_mul_r, Zpower_mod, E1 by lia. exact E2. Qed.
Lemma pow_unpow a x y b n c : 0 < n -> 0 <= x -> 0 <= y -> a ^ x mod n = b -> a ^ (x * y) mod n = c -> b ^ y mod n = c.
Proof. intros Hn Hx Hy E1 E2. rewrite Z.pow_mul_r, Zpower_mod, E1 in E2 by lia. exact E2. Qed.
Ltac power K :=
  match goal with |- ?a ^ ?e mod ?n = _ =>
    let e' := eval hnf in e in
    match e' with Zpos ?p => change e with (Zpos p); rewrite <- (powr_spec _ n a p K) end
  end; apply Z.eqb_eq; vm_compute; reflexivity.

(** Pocklington's criterion for one prime r, from the value v = a^((n-1)/r). *)
Lemma pock_value n r e a v q : 1 < n -> prime q -> (q | n) -> prime r -> 0 <= e -> (r ^ (e + 1) | n - 1) ->
  a ^ ((n - 1) / r) mod n = v -> v ^ r mod n = 1 -> Z.gcd (v - 1) n = 1 -> (r ^ (e + 1) | q - 1).
Proof.
  intros Hn Hq Dq Hr He D Ev E1 G. apply (pocklington_step n q r e a); auto; [|rewrite Ev; exact G].
  assert (1 < r) by (destruct Hr; lia). assert (Dr : (r | n - 1)).
  { eapply Z.divide_trans; [|exact D]. replace (e + 1) with (Z.succ e) by lia. rewrite Z.pow_succ_r by lia. apply Z.divide_mul_l, Z.divide_refl. }
  destruct Dr as [c Hc]. rewrite Hc, Z.div_mul in Ev by lia. rewrite Hc. assert (0 <= c) by nia.
  rewrite Z.pow_mul_r by lia. rewrite Zpower_mod, Ev by lia. exact E1.
Qed.

Definition L202 : Z := 0x3677abc4eb30ccc5c90ee8268a99c0bbc3cf562d68c5c461f11.
Lemma prime_L : prime L202.
Proof.
  assert (K := keeps_barrett L202 0x4b336b54eec9bf6032bbeb8493495396da236f4f8c2b1029f3f 202).
  assert (E0 : 2 ^ 0x15764950d4e59dd0821be7ad0 mod L202 = 0x1e2bf78c2170263552b599f5d97e5c85fd0a4212a74ab909a48) by (power K).
  assert (E1 : 0x1e2bf78c2170263552b599f5d97e5c85fd0a4212a74ab909a48 ^ 28547348873 mod L202 = 0x17df59c05389aac255379335afd22fb3c6e2c1b2d771755b0ad) by (power K).
  assert (E2 : 0x1e2bf78c2170263552b599f5d97e5c85fd0a4212a74ab909a48 ^ 1803099112058626586861 mod L202 = 0x1f070e6bea7e38f6dc09a756f55bac3d2ad9bd36f51f02dc3d4) by (power K).
  assert (E3 : 0x17df59c05389aac255379335afd22fb3c6e2c1b2d771755b0ad ^ 1803099112058626586861 mod L202 = 1) by (power K).
  assert (E4 : 0x1f070e6bea7e38f6dc09a756f55bac3d2ad9bd36f51f02dc3d4 ^ 28547348873 mod L202 = 1) by (refine (pow_unpow _ _ _ _ _ _ _ _ _ E2 _); [reflexivity|discriminate|discriminate|]; rewrite Z.mul_comm; refine (pow_pow _ _ _ _ _ _ _ _ _ E1 E3); [reflexivity|discriminate|discriminate]).
  apply (pocklington _ (1803099112058626586861 * 28547348873)); [reflexivity|reflexivity|reflexivity|].
  intros q Q1 Q2.
  assert (D1 : (1803099112058626586861 ^ (0 + 1) | q - 1)).
  { apply (pock_value L202 _ 0 2 0x17df59c05389aac255379335afd22fb3c6e2c1b2d771755b0ad); [reflexivity|assumption|assumption|apply prime_71|apply Z.le_refl| | |exact E3|vm_compute; reflexivity].
    - apply Z.mod_divide; [discriminate|vm_compute; reflexivity].
    - replace ((L202 - 1) / 1803099112058626586861) with (0x15764950d4e59dd0821be7ad0 * 28547348873) by reflexivity. refine (pow_pow _ _ _ _ _ _ _ _ _ E0 E1); [reflexivity|discriminate|discriminate]. }
  assert (D2 : (28547348873 ^ (0 + 1) | q - 1)).
  { apply (pock_value L202 _ 0 2 0x1f070e6bea7e38f6dc09a756f55bac3d2ad9bd36f51f02dc3d4); [reflexivity|assumption|assumption|apply prime_35|apply Z.le_refl| | |exact E4|vm_compute; reflexivity].
    - apply Z.mod_divide; [discriminate|vm_compute; reflexivity].
    - replace ((L202 - 1) / 28547348873) with (0x15764950d4e59dd0821be7ad0 * 1803099112058626586861) by reflexivity. refine (pow_pow _ _ _ _ _ _ _ _ _ E0 E2); [reflexivity|discriminate|discriminate]. }
  change (0 + 1) with 1 in *. rewrite Z.pow_1_r in D1, D2. destruct D1 as [c D1]. rewrite D1 in *. rewrite Z.mul_comm in D2. apply Gauss in D2.
  - destruct D2 as [j ->]. exists j. ring.
  - apply rel_prime_sym, prime_rel_prime; [apply prime_71|]. intros F. apply prime_div_prime in F; [discriminate|apply prime_71|apply prime_35].
Qed.

Definition order_cofactor : Z := 0x2599b5aa7764e.
Definition order_red := barrett p_order 0x1fffffffffffffbc000000000000908121fbb648d32e2267189ec175384d77b0 252.
Lemma keeps_order : keeps order_red p_order. Proof. apply keeps_barrett. Qed.
Theorem prime_order : prime p_order.
Proof.
  assert (E0 : 2 ^ order_cofactor mod p_order = 0x400f5f34106e8e9418796f743587a950417ff04091cd8f31ba07b04aaedc26e) by (power keeps_order).
  assert (E1 : 0x400f5f34106e8e9418796f743587a950417ff04091cd8f31ba07b04aaedc26e ^ L202 mod p_order = 1) by (power keeps_order).
  apply (pocklington _ L202); [reflexivity|reflexivity|reflexivity|].
  intros q Q1 Q2. rewrite <- (Z.pow_1_r L202). change 1 with (0 + 1) at 1.
  apply (pock_value p_order L202 0 2 0x400f5f34106e8e9418796f743587a950417ff04091cd8f31ba07b04aaedc26e); [reflexivity|assumption|assumption|apply prime_L|apply Z.le_refl| |exact E0|exact E1|vm_compute; reflexivity].
  apply Z.mod_divide; [discriminate|vm_compute; reflexivity].
Qed.

Lemma field_half : 3 ^ ((p_field - 1) / 2) mod p_field = p_field - 1.
Proof. change ((p_field - 1) / 2) with 0x400000000000008800000000000000000000000000000000000000000000000. power keeps_proth. Qed.
Theorem prime_field : prime p_field.
Proof.
  apply (pocklington _ (2 ^ 192)); [reflexivity|reflexivity|reflexivity|].
  intros q Q1 Q2. change 192 with (191 + 1).
  apply (pock_value p_field 2 191 3 (p_field - 1)); [reflexivity|assumption|assumption|apply prime_2|lia| |exact field_half|vm_compute; reflexivity|vm_compute; reflexivity].
  apply Z.mod_divide; [discriminate|vm_compute; reflexivity].
Qed.

(** ** Multiplicative order *)
(** If a^N = 1 and a^(N/r) <> 1 for every prime r of N, then a^k = 1 only for multiples of N. *)
Lemma exact_order m a N (rs : list Z) : 1 < m -> 0 < N -> Z.gcd a m = 1 -> a ^ N mod m = 1 ->
  (forall r, prime r -> (r | N) -> In r rs) ->
  (forall r, In r rs -> a ^ (N / r) mod m <> 1) ->
  forall k, 0 <= k -> a ^ k mod m = 1 -> (N | k).
Proof.
  intros Hm HN G E Hrs Hne k Hk Ek. destruct (Z.eq_dec k 0) as [->|Nk]; [apply Z.divide_0_r|].
  assert (Eg : a ^ Z.gcd k N mod m = 1) by (apply pow_mod_gcd; try assumption; lia).
  set (d := Z.gcd k N) in *.
  assert (Dn : (d | N)) by apply Z.gcd_divide_r. assert (Dk : (d | k)) by apply Z.gcd_divide_l.
  assert (Hd : 0 < d). { pose proof (Z.gcd_nonneg k N). destruct (Z.eq_dec d 0); [|unfold d in *; lia]. unfold d in *. apply Z.gcd_eq_0_r in e. lia. }
  destruct Dn as [c Hc]. assert (Hc0 : 0 < c) by nia.
  destruct (Z.eq_dec c 1) as [->|Nc]. { replace N with d by lia. exact Dk. }
  exfalso. assert (exists q, prime q /\ (q | c)) as (q & Q1 & Q2).
  { destruct (prime_or_small_divisor c ltac:(lia)) as [P|(q & Q1 & Q2 & _)]; [exists c; split; auto using Z.divide_refl|exists q; auto]. }
  apply (Hne q). { apply Hrs; [assumption|]. rewrite Hc. apply Z.divide_mul_l. assumption. }
  destruct Q2 as [e He]. assert (1 < q) by (destruct Q1; lia).
  replace (N / q) with (d * e). 2: { rewrite Hc, He. replace (e * q * d) with ((d * e) * q) by ring. rewrite Z.div_mul; lia. }
  assert (0 <= e) by nia. rewrite Z.pow_mul_r by lia. rewrite Zpower_mod by lia. rewrite Eg. rewrite Z.pow_1_l by lia. apply Z.mod_small. lia.
Qed.

Lemma prime_dvd_mul q a b : prime q -> (q | a * b) -> (q | a) \/ (q | b).
Proof. intros H. apply prime_mult. exact H. Qed.
Lemma prime_dvd_pow q a k : prime q -> 0 <= k -> (q | a ^ k) -> (q | a).
Proof.
  intros Hq Hk. revert k Hk. apply (natlike_ind (fun k => (q | a ^ k) -> (q | a))).
  - rewrite Z.pow_0_r. intros D. apply Z.divide_1_r_nonneg in D; destruct Hq; lia.
  - intros k Hk IH D. rewrite Z.pow_succ_r in D by lia. apply prime_dvd_mul in D as [D|D]; auto.
Qed.

Lemma factors_field : p_field - 1 = 2 ^ 192 * (5 * (7 * (98714381 * 166848103))).
Proof. reflexivity. Qed.
Lemma prime_divisors_field r : prime r -> (r | p_field - 1) -> In r [2; 5; 7; 98714381; 166848103].
Proof.
  intros Hr D. rewrite factors_field in D.
  apply prime_dvd_mul in D as [D|D]; auto. { apply prime_dvd_pow in D; auto; [|lia]. apply prime_div_prime in D; auto using prime_2. subst; cbn; auto. }
  apply prime_dvd_mul in D as [D|D]; auto. { apply prime_div_prime in D; auto using prime_5. subst; cbn; auto. }
  apply prime_dvd_mul in D as [D|D]; auto. { apply prime_div_prime in D; auto using prime_7. subst; cbn; auto. }
  apply prime_dvd_mul in D as [D|D]; auto. { apply prime_div_prime in D; auto using prime_98714381. subst; cbn; auto. }
  apply prime_div_prime in D; auto using prime_166848103. subst; cbn; auto 10.
Qed.

(** 3 generates the multiplicative group of the field. *)
Theorem field_generator_order k : 0 <= k -> 3 ^ k mod p_field = 1 -> (p_field - 1 | k).
Proof.
  apply (exact_order p_field 3 (p_field - 1) [2; 5; 7; 98714381; 166848103]).
  - reflexivity.
  - reflexivity.
  - reflexivity.
  - apply fermat; [apply prime_field|]. intros D. apply Z.mod_divide in D; [discriminate D|discriminate].
  - apply prime_divisors_field.
  - assert (E0 : 3 ^ 0x1000000000000000000000000000000000000000000000000 mod p_field = 0xf66926e0ff773515a10661aa1f4d7e5cd6a000cc515a33cea96fa9c5262e50) by (power keeps_proth).
    assert (S : forall r c v, (p_field - 1) / r = 0x1000000000000000000000000000000000000000000000000 * Zpos c -> 0xf66926e0ff773515a10661aa1f4d7e5cd6a000cc515a33cea96fa9c5262e50 ^ Zpos c mod p_field = v -> v <> 1 ->
      3 ^ ((p_field - 1) / r) mod p_field <> 1).
    { intros r c v -> H N. erewrite pow_pow; [exact N| | | |exact E0|exact H]; [reflexivity|discriminate|discriminate]. }
    intros r Hr. cbn [In] in Hr. destruct Hr as [<-|[<-|[<-|[<-|[<-|[]]]]]].
    + rewrite field_half. discriminate.
    + apply (S 5 0x19999999999999d%positive 0x750ce081d5deb39d9b348a14f856eb48ef44b656b14d31995115463adabaa2f); [reflexivity|power keeps_proth|discriminate].
    + apply (S 7 0x124924924924927%positive 0x417ec5c6e4e8fa859058f5cf64e8a19376b440158c3a899e66ea4824e7115e4); [reflexivity|power keeps_proth|discriminate].
    + apply (S 98714381 0x15c128015%positive 0x100c7fcbab0dcd056d1cae540835ed5020889c4f6a7619900154943dff84170); [reflexivity|power keeps_proth|discriminate].
    + apply (S 166848103 0xcdef2ac7%positive 0x2ab2a4f6793cb093fc06444d112c636b84cbec765bf8e05f80c8fdc1b7ce8bd); [reflexivity|power keeps_proth|discriminate].
Qed.

Lemma prime_16996f : prime 0x16996f. Proof. trial 610. Qed.
Lemma prime_046fcf43 : prime 0x046fcf43. Proof. trial 4320. Qed.
Lemma factors_order : p_order - 1 = 2 * (3 * (0x16996f * (0x046fcf43 * L202))).
Proof. reflexivity. Qed.
Definition order_primes := [2; 3; 0x16996f; 0x046fcf43; L202].
Lemma prime_divisors_order r : prime r -> (r | p_order - 1) -> In r order_primes.
Proof.
  intros Hr D. rewrite factors_order in D. unfold order_primes.
  apply prime_dvd_mul in D as [D|D]; auto. { apply prime_div_prime in D; auto using prime_2. subst; cbn; auto. }
  apply prime_dvd_mul in D as [D|D]; auto. { apply prime_div_prime in D; auto using prime_3. subst; cbn; auto. }
  apply prime_dvd_mul in D as [D|D]; auto. { apply prime_div_prime in D; auto using prime_16996f. subst; cbn; auto. }
  apply prime_dvd_mul in D as [D|D]; auto. { apply prime_div_prime in D; auto using prime_046fcf43. subst; cbn; auto. }
  apply prime_div_prime in D; auto using prime_L. subst; cbn; auto 10.
Qed.

(** The generator of the scalar field has the Montgomery representation 3, so its value g
    satisfies g * 2^256 = 3 modulo the order. *)
Definition order_generator : Z := 0x383c078824b0a5defc345de1b24040d41519c5d2fd9051985e3b0c4a2b39171.
Theorem order_generator_order k : 0 <= k -> order_generator ^ k mod p_order = 1 -> (p_order - 1 | k).
Proof.
  apply (exact_order p_order order_generator (p_order - 1) order_primes).
  - reflexivity.
  - reflexivity.
  - vm_compute; reflexivity.
  - apply fermat; [apply prime_order|]. intros D. apply Z.mod_divide in D; [discriminate D|discriminate].
  - apply prime_divisors_order.
  - assert (E0 : order_generator ^ L202 mod p_order = 0x2f4ea6b8262186385668082a1f633125e4c0f059b951be9a5e15cbb0c591a34) by (power keeps_order).
    assert (S : forall r c v, (p_order - 1) / r = L202 * Zpos c -> 0x2f4ea6b8262186385668082a1f633125e4c0f059b951be9a5e15cbb0c591a34 ^ Zpos c mod p_order = v -> v <> 1 ->
      order_generator ^ ((p_order - 1) / r) mod p_order <> 1).
    { intros r c v -> H N. erewrite pow_pow; [exact N| | | |exact E0|exact H]; [reflexivity|discriminate|discriminate]. }
    intros r Hr. cbn [In order_primes] in Hr. destruct Hr as [<-|[<-|[<-|[<-|[<-|[]]]]]].
    + apply (S 2 0x12ccdad53bb27%positive 0x800000000000010ffffffffffffffffb781126dcae7b2321e66a241adc64d2e); [reflexivity|power keeps_order|discriminate].
    + apply (S 3 0xc8891e37d21a%positive 0x4aabf0260dcfd8b9bad3051414c59984e2ea5a870f9e8714a8c55ee4de5e2d8); [reflexivity|power keeps_order|discriminate].
    + apply (S 1481071 0x1a9edb92%positive 0xfe7132ccff0baf8af8dcd1d0ba61d99a84a02ec638e4245408cf72d44747cc); [reflexivity|power keeps_order|discriminate].
    + apply (S 74436419 0x87989a%positive 0x157cbb8ddb285c2fffe83e33b38edf7b6044a5a9ba9efc1e48f781b45efc314); [reflexivity|power keeps_order|discriminate].
    + change ((p_order - 1) / L202) with order_cofactor. assert (E : order_generator ^ order_cofactor mod p_order = 0x37b5e5160233a28f4e411af4ec909e2f6ec656731559aa3a6fdd2bc7c6167a) by (power keeps_order).
      rewrite E. discriminate.
Qed.
