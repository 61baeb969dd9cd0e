(** C47: checking a combination of components is checking the components. *)
Require Import Field ZArith NArith Lia Bool List.
From Verif Require Import Word KnuthModel FieldSig FieldInstance FieldAlgModel Arr FftModel FftSpec PermuteProofs StarkBase StarkInstance PolyModel TraceModel TraceProps ExprModel ExprSpec ExprProofs CheckProps OodsProofs ComponentModel ComponentProofs ComponentSubst ComponentSpec ComponentProps.
Import ListNotations.
Open Scope nat_scope.

Section Check.
Context {F : Type} (o : ops F) (L : lawful o) (e : engine F) (M : nat) (w : nat -> F) (SD : sound o e M w).
Lemma produces_dims {C W} (c : component F C W) wit k t cs : produces o c wit k t cs -> dims t (2 ^ k) (k_polynomials c).
Proof.
  intros (Hs & Ht & _). unfold trace_table in Ht. rewrite Hs in Ht. cbn [bind] in Ht. destruct (k_trace c (k_polynomials c) (2 ^ k) wit) as [ws|]; [|discriminate]. apply (apply_dims o _ _ _ _ _ (dims_new o _ _) Ht).
Qed.
Lemma pow_Z k : Z.of_nat (2 ^ k) = (2 ^ Z.of_nat k)%Z.
Proof. rewrite Nat2Z.inj_pow. reflexivity. Qed.
Lemma check_holds {C W} (c : component F C W) wit k t cs : k <= M -> k < 63 -> produces o c wit k t cs ->
  exists res, k_check o e c wit = Some res /\ (res = None <-> holds o (w k) (2 ^ k) t cs).
Proof.
  intros Hk H63 P. destruct (produces_dims c wit k t cs P) as (Sh & R & Cc). destruct P as (Hs & Ht & Hc & HP).
  destruct (C53_check_constraints F o L e M w SD t k cs Sh Hk R) as (res & E & H).
  { intros x Hx. destruct (HP x Hx) as (U & Fr & Rf). split; [exact U|]. split; [exact Fr|]. intros i j Rij. destruct (Rf i j Rij) as [A1 A2]. rewrite R, Cc. split; [exact A1|]. rewrite pow_Z. split; [exact A2|].
    assert (2 ^ Z.of_nat k < 2 ^ 63)%Z by (apply Z.pow_lt_mono_r; lia). lia. }
  exists res. split.
  - unfold k_check, from_expressions. rewrite Hs, Hc. cbn [bind]. rewrite (s_root _ _ _ _ SD k Hk). cbn [bind c_exprs]. rewrite Ht. cbn [bind]. exact E.
  - destruct res as [[row which]|].
    + split; [discriminate|]. intros Hh. exfalso. destruct H as (Hr & (c0 & Hc0 & V) & _). apply (Hh row c0 Hr (nth_error_In _ _ Hc0) V).
    + split; [|reflexivity]. intros _ row c0 Hr Hin V. apply In_nth_error in Hin as (n & Hn). apply (H row n Hr). exists c0. split; assumption.
Qed.
Lemma check_iff {C W C' W'} (c : component F C W) (c' : component F C' W') wit wit' k k' t t' cs cs' : k <= M -> k < 63 -> produces o c wit k t cs -> k' <= M -> k' < 63 -> produces o c' wit' k' t' cs' ->
  (holds o (w k) (2 ^ k) t cs <-> holds o (w k') (2 ^ k') t' cs') -> (k_check o e c wit = Some None <-> k_check o e c' wit' = Some None).
Proof.
  intros H1 H2 P H1' H2' P' H. destruct (check_holds c wit k t cs H1 H2 P) as (r & E & Hr). destruct (check_holds c' wit' k' t' cs' H1' H2' P') as (r' & E' & Hr'). rewrite E, E'.
  split; intros Q; injection Q as ->; f_equal; tauto.
Qed.
Lemma all_leaves (f : rexpr F -> option (rexpr F)) g cs : (forall c, f c = Some (g c)) -> option_all (map f cs) = Some (map g cs).
Proof. intros H. induction cs as [|c cs IH]; [reflexivity|]. cbn [map option_all]. rewrite H. cbn [bind]. rewrite IH. reflexivity. Qed.
Lemma refers_leaves (sx : rexpr F) st : (forall i j, ~ refers sx i j) -> forall c i j, refers (leaves sx st c) i j -> exists i' j', refers c i' j' /\ refers (st i' j') i j.
Proof.
  intros HX c. induction c as [|c|i j|p a IH|i n a IH|a IHa b IHb|a IH|a IHa b IHb|a IH|a IH n]; intros i' j' R; cbn [leaves refers] in *; auto.
  - exfalso. exact (HX _ _ R). - contradiction. - exists i, j. auto.
  - destruct R as [R|R]; [destruct (IHa _ _ R) as (x & y & A & B)|destruct (IHb _ _ R) as (x & y & A & B)]; exists x, y; auto.
  - destruct R as [R|R]; [destruct (IHa _ _ R) as (x & y & A & B)|destruct (IHb _ _ R) as (x & y & A & B)]; exists x, y; auto.
Qed.
Lemma row_get (t : table F) rows r i j : t_rows t = rows -> row_trace t r i j = t_get t (Z.to_nat ((Z.of_nat r + j) mod Z.of_nat rows)) i.
Proof. intros <-. reflexivity. Qed.
Lemma row_bound rows r j : 0 < rows -> Z.to_nat ((Z.of_nat r + j) mod Z.of_nat rows) < rows.
Proof. intros H. pose proof (Z.mod_pos_bound (Z.of_nat r + j) (Z.of_nat rows) ltac:(lia)). lia. Qed.

(** Horizontal *)
Definition shift_st (n : nat) : nat -> Z -> rexpr F := fun i j => ETrace (i + n) j.
Lemma shift_leaves n c : shift_columns n c = Some (leaves EX (shift_st n) c).
Proof. unfold shift_columns. apply map_leaves; [reflexivity|reflexivity|]. intros x Hx Ht. destruct x; try reflexivity. exfalso. exact (Ht _ _ eq_refl). Qed.
Lemma horizontal_ok {C W C' W'} dbg (left : component F C W) (right : component F C' W') wl wr k tl tr cl cr :
  produces o left wl k tl cl -> produces o right wr k tr cr ->
  exists T cs, produces o (k_horizontal dbg left right) (wl, wr) k T cs /\ (holds o (w k) (2 ^ k) T cs <-> holds o (w k) (2 ^ k) tl cl /\ holds o (w k) (2 ^ k) tr cr).
Proof.
  intros Pl Pr. pose proof (produces_dims _ _ _ _ _ Pl) as (_ & Rl & Cl). pose proof (produces_dims _ _ _ _ _ Pr) as (_ & Rr & Cr). destruct Pl as (Sl & Tl & Kl & Hl), Pr as (Sr & Tr & Kr & Hr).
  destruct (C47_horizontal_cells F o dbg C W C' W' left right wl wr (2 ^ k) tl tr Sl Sr Tl Tr) as (T & ET & ShT & RT & CT & GT).
  set (n := k_polynomials left) in *. exists T, (cl ++ map (leaves EX (shift_st n)) cr). split.
  - unfold produces. cbn [k_horizontal k_size k_claim k_constraints k_polynomials fst snd]. rewrite Sl, Sr. cbn [bind]. rewrite Nat.eqb_refl. split; [reflexivity|]. split; [exact ET|]. split.
    + rewrite Kl, Kr. cbn [bind]. rewrite (all_leaves _ _ _ (shift_leaves n)). reflexivity.
    + intros x Hx. apply in_app_iff in Hx as [Hx|Hx].
      * destruct (Hl x Hx) as (U & Fr & Rf). split; [exact U|]. split; [exact Fr|]. intros i j R. destruct (Rf i j R). split; [unfold n in *; lia|assumption].
      * apply in_map_iff in Hx as (y & <- & Hy). destruct (Hr y Hy) as (U & Fr & Rf). split; [apply leaves_usizes; [exact I|intros; exact I|exact U]|]. split; [apply leaves_fraction; [exact I|intros; exact I|exact Fr]|].
        intros i j R. apply refers_leaves in R as (i' & j' & R1 & R2); [|intros ? ? []]. cbn in R2. destruct R2 as [-> ->]. destruct (Rf i' j' R1). split; [unfold n in *; lia|assumption].
  - assert (VL : forall row c, row < 2 ^ k -> In c cl -> (violated o (fpw o (w k) row) (row_trace T row) c <-> violated o (fpw o (w k) row) (row_trace tl row) c)).
    { intros row c Hrow Hc. assert (Q : forall i j, refers c i j -> row_trace T row i j = row_trace tl row i j).
      { intros i j R. destruct (Hl c Hc) as (_ & _ & Rf). destruct (Rf i j R) as [Hi _]. unfold row_trace. rewrite RT, Rl, GT. rewrite (proj2 (Nat.ltb_lt i n) Hi). reflexivity. }
      split; apply violated_ext; intros i j R; [|symmetry]; apply Q, R. }
    assert (VR : forall row c, row < 2 ^ k -> In c cr -> (violated o (fpw o (w k) row) (row_trace T row) (leaves EX (shift_st n) c) <-> violated o (fpw o (w k) row) (row_trace tr row) c)).
    { intros row c Hrow Hc. apply leaves_violated; [exact I|intros; exact I|intros u; apply value_x|]. intros i j R u. unfold shift_st. rewrite value_trace. unfold row_trace. rewrite RT, Rr, GT. destruct (Nat.ltb_spec (i + n) n); [lia|]. replace (i + n - n) with i by lia. tauto. }
    unfold holds. split.
    + intros H. split; intros row c Hrow Hc V; [apply (H row c Hrow); [apply in_app_iff; left; exact Hc|apply VL; assumption]|apply (H row (leaves EX (shift_st n) c) Hrow); [apply in_app_iff; right; apply in_map, Hc|apply VR; assumption]].
    + intros [H1 H2] row c Hrow Hc V. apply in_app_iff in Hc as [Hc|Hc]; [apply (H1 row c Hrow Hc); apply VL; assumption|]. apply in_map_iff in Hc as (y & <- & Hy). apply (H2 row y Hrow Hy). apply VR; assumption.
Qed.

(** Fold *)
Definition fold_st (f : nat) : nat -> Z -> rexpr F := fun i j => ETrace (i / 2 ^ f) (Z.of_nat (2 ^ f) * j + Z.of_nat (rev_bits f (i mod 2 ^ f))).
Lemma fold_leaves dbg f c : f < 64 -> fold_cell dbg (2 ^ f) c = Some (leaves EX (fold_st f) c).
Proof.
  intros Hf. unfold fold_cell. apply map_leaves; [reflexivity| |].
  - intros i j. rewrite permute_index_spec; [reflexivity|exact Hf|apply Nat.mod_upper_bound; pose proof (pow2_pos f); lia].
  - intros x Hx Ht. destruct x; try reflexivity. exfalso. exact (Ht _ _ eq_refl).
Qed.
Lemma fold_row n red r j off : 0 < n -> 0 < red -> (0 <= off < Z.of_nat red)%Z ->
  Z.to_nat ((Z.of_nat (r * red) + (Z.of_nat red * j + off)) mod Z.of_nat (n * red)) = Z.to_nat ((Z.of_nat r + j) mod Z.of_nat n) * red + Z.to_nat off.
Proof.
  intros Hn Hr Ho. pose proof (Z.mod_pos_bound (Z.of_nat r + j) (Z.of_nat n) ltac:(lia)) as B. apply Nat2Z.inj.
  rewrite Nat2Z.inj_add, Nat2Z.inj_mul, !Z2Nat.id; try lia; [|apply Z.mod_pos_bound; lia]. rewrite !Nat2Z.inj_mul. set (q := ((Z.of_nat r + j) / Z.of_nat n)%Z).
  pose proof (Z.div_mod (Z.of_nat r + j) (Z.of_nat n) ltac:(lia)) as D. fold q in D. symmetry. apply Z.mod_unique with q.
  - left. split; [apply Z.add_nonneg_nonneg; [apply Z.mul_nonneg_nonneg; lia|lia]|]. assert (((Z.of_nat r + j) mod Z.of_nat n + 1) * Z.of_nat red <= Z.of_nat n * Z.of_nat red)%Z by (apply Z.mul_le_mono_nonneg_r; lia). lia.
  - rewrite Z2Nat.id by lia. replace (Z.of_nat r * Z.of_nat red + (Z.of_nat red * j + off))%Z with ((Z.of_nat r + j) * Z.of_nat red + off)%Z by ring. set (m := ((Z.of_nat r + j) mod Z.of_nat n)%Z) in *. rewrite D. ring.
Qed.
Lemma fold_ok {C W} dbg (element : component F C W) folded wit k f t cs : f < 64 -> k + f <= M -> k_fold dbg element f = Some folded -> produces o element wit k t cs ->
  (forall c, In c cs -> selects_rows o (2 ^ k) c) ->
  exists T cs', produces o folded wit (k + f) T cs' /\ (holds o (w (k + f)) (2 ^ (k + f)) T cs' <-> holds o (w k) (2 ^ k) t cs).
Proof.
  intros Hf HM Ek P SR. pose proof (produces_dims _ _ _ _ _ P) as (_ & Rt & Ct). destruct P as (Sz & Tt & Kt & Ht).
  destruct (C47_fold_cells F o dbg C W element f folded (2 ^ k) wit t Hf Ek Sz Tt) as (T & ET & ShT & RT & CT & GT & _).
  unfold k_fold, reduction in Ek. rewrite (proj2 (Nat.ltb_lt f 64) Hf) in Ek. cbn [bind] in Ek. injection Ek as <-.
  pose proof (pow2_pos f) as Pf. pose proof (pow2_pos k) as Pk. assert (RL : forall p, rev_bits f p < 2 ^ f) by (intros p; apply rev_lt).
  exists T, (map (leaves EX (fold_st f)) cs).
  assert (UP : forall r c, r < 2 ^ k -> c < k_polynomials element -> r * 2 ^ f + rev_bits f (c mod 2 ^ f) < t_rows T /\ c / 2 ^ f < t_cols T /\ t_get T (r * 2 ^ f + rev_bits f (c mod 2 ^ f)) (c / 2 ^ f) = t_get t r c).
  { intros r c Hr Hc. destruct (GT r c Hr Hc) as (row & col & E & A1 & A2 & A3). unfold map_up in E. rewrite permute_index_spec in E; [|exact Hf|apply Nat.mod_upper_bound; lia]. cbn [bind] in E. injection E as <- <-. auto. }
  split.
  - unfold produces. split; [cbn [k_size]; rewrite Sz, Nat.pow_add_r; reflexivity|]. split; [exact ET|]. cbn [k_claim k_constraints k_polynomials]. split.
    + rewrite Kt. cbn [bind]. apply all_leaves. intros c. apply fold_leaves, Hf.
    + intros x Hx. apply in_map_iff in Hx as (y & <- & Hy). destruct (Ht y Hy) as (U & Fr & Rf). split; [apply leaves_usizes; [exact I|intros; exact I|exact U]|]. split; [apply leaves_fraction; [exact I|intros; exact I|exact Fr]|].
      intros i j R. apply refers_leaves in R as (i' & j' & R1 & R2); [|intros ? ? []]. cbn in R2. destruct R2 as [-> ->]. destruct (Rf i' j' R1) as [A1 A2]. split.
      * rewrite <- CT. destruct (UP 0 i' Pk A1) as (_ & B & _). exact B.
      * rewrite Nat2Z.inj_add, Z.pow_add_r by lia. rewrite pow_Z. assert (0 < 2 ^ Z.of_nat f)%Z by (apply Z.pow_pos_nonneg; lia). assert (2 ^ Z.of_nat f * - 2 ^ Z.of_nat k <= 2 ^ Z.of_nat f * j')%Z by (apply Z.mul_le_mono_nonneg_l; lia). lia.
  - assert (V : forall r c, r < 2 ^ k -> In c cs -> (violated o (fpw o (w (k + f)) (r * 2 ^ f)) (row_trace T (r * 2 ^ f)) (leaves EX (fold_st f) c) <-> violated o (fpw o (w k) r) (row_trace t r) c)).
    { intros r c Hr Hc. replace (fpw o (w (k + f)) (r * 2 ^ f)) with (fpw o (w k) r).
      2:{ rewrite <- (w_pow o L e M w SD k f HM), <- (fpw_mul o L). f_equal. lia. }
      apply leaves_violated; [exact I|intros; exact I|intros u; apply value_x|]. intros i j R u. unfold fold_st. rewrite value_trace. destruct (Ht c Hc) as (_ & _ & Rf). destruct (Rf i j R) as [Hi _].
      rewrite (row_get T (2 ^ k * 2 ^ f)) by exact RT. rewrite fold_row; [|exact Pk|exact Pf|pose proof (RL (i mod 2 ^ f)); lia]. rewrite Nat2Z.id.
      destruct (UP (Z.to_nat ((Z.of_nat r + j) mod Z.of_nat (2 ^ k))) i) as (_ & _ & ->); [apply row_bound, Pk|exact Hi|]. rewrite (row_get t (2 ^ k)) by exact Rt. tauto. }
    unfold holds. split.
    + intros H r c Hr Hc Vc. apply (H (r * 2 ^ f) (leaves EX (fold_st f) c)); [rewrite Nat.pow_add_r; apply Nat.mul_lt_mono_pos_r; assumption|apply in_map, Hc|]. apply V; assumption.
    + intros H row c' Hrow Hc' Vc. apply in_map_iff in Hc' as (c & <- & Hc). destruct (Nat.eq_dec (row mod 2 ^ f) 0) as [E0|N0].
      * pose proof (Nat.div_mod row (2 ^ f) ltac:(lia)) as D. rewrite E0, Nat.add_0_r, Nat.mul_comm in D. rewrite D in Vc. apply (V (row / 2 ^ f) c) in Vc; [|apply Nat.div_lt_upper_bound; [lia|]; rewrite Nat.mul_comm, <- Nat.pow_add_r; exact Hrow|exact Hc]. revert Vc. apply H; [|exact Hc]. apply Nat.div_lt_upper_bound; [lia|]. rewrite Nat.mul_comm, <- Nat.pow_add_r. exact Hrow.
      * destruct Vc as ((d & Hd & Vd) & _). rewrite leaves_den in Hd; [|exact I|intros; exact I]. apply in_map_iff in Hd as (d0 & <- & Hd). apply N0.
        assert (Vd0 : value o (fpw o (w (k + f)) row) (fun i j => row_trace T row (i / 2 ^ f) (Z.of_nat (2 ^ f) * j + Z.of_nat (rev_bits f (i mod 2 ^ f)))) d0 (f0 o)).
        { eapply (proj1 (leaves_value o EX (fold_st f) _ _ _ _ d0 (f0 o) _ _)). exact Vd. Unshelve. - intros u; apply value_x. - intros i j _ u. unfold fold_st. apply value_trace. }
        apply (SR c Hc) in Vd0; [|exact Hd]. rewrite <- (fpw_mul o L) in Vd0.
        assert (E1 : fpw o (w f) row = f1 o). { rewrite <- (w_pow o L e M w SD f k) by lia. rewrite <- (fpw_mul o L). rewrite Nat.add_comm, Nat.mul_comm. exact Vd0. }
        apply (w_inj o L e M w SD f); [lia|apply Nat.mod_upper_bound; lia|exact Pf|]. rewrite (Nat.div_mod row (2 ^ f)) in E1 by lia. rewrite (fpw_add o L), (fpw_mul o L), (w_one o e M w SD f) in E1 by lia.
        pose proof (F_R (law_field o L)) as RR. rewrite (fpw_one o L), (Rmul_1_l RR) in E1. exact E1.
Qed.

(** Vertical *)
Definition power_sx (size : nat) : rexpr F := EExp EX (Z.of_nat size).
Lemma power_leaves size c : power_x size c = Some (leaves (power_sx size) ETrace c).
Proof. unfold power_x. apply map_leaves; [reflexivity|reflexivity|]. intros x Hx Ht. destruct x; try reflexivity. exfalso. exact (Hx eq_refl). Qed.
Lemma value_power x T size u : value o x T (power_sx size) u <-> u = fpw o x size.
Proof.
  unfold power_sx. split; [intros V; inversion V as [| | | | | | | |a n y Va E1 E2]; subst; inversion Va; subst|intros ->].
  - rewrite <- (fexp_nat o). f_equal. lia.
  - replace (fpw o x size) with (fexp o x (Z.to_N (Z.of_nat size))); [constructor; constructor|]. rewrite <- (fexp_nat o). f_equal. lia.
Qed.
Lemma vertical_ok {C W} dbg (element : component F C W) vertical m ws k tables cs : k + m <= M -> k + m < 63 -> k_vertical dbg element (2 ^ m) = Some vertical -> length ws = 2 ^ m ->
  Forall2 (fun wit t => produces o element wit k t cs) ws tables -> (forall c, In c cs -> stays_inside o (w k) (2 ^ k) c) ->
  exists T cs', produces o vertical ws (k + m) T cs' /\ (holds o (w (k + m)) (2 ^ (k + m)) T cs' <-> forall t, In t tables -> holds o (w k) (2 ^ k) t cs).
Proof.
  intros HM H63 Ev Hl HF SI. pose proof (pow2_pos m) as Pm. pose proof (pow2_pos k) as Pk.
  assert (Ex : exists w0 t0, In w0 ws /\ hd_error ws = Some w0 /\ produces o element w0 k t0 cs). { destruct ws as [|w0 ws0]; [cbn in Hl; lia|]. inversion HF as [|? t0 ? ? P0 ? E1 E2]; subst. exists w0, t0. split; [left; reflexivity|]. split; [reflexivity|exact P0]. }
  destruct Ex as (w0 & t0 & Hin0 & Hd0 & P0). pose proof P0 as (Sz & _ & K0 & H0).
  assert (HF' : Forall2 (fun wit t => trace_table o element wit = Some t) ws tables) by (clear - HF; induction HF as [|a b l l' (_ & Q & _) _ IH]; constructor; assumption).
  assert (LT : length tables = 2 ^ m) by (rewrite <- Hl; clear - HF; induction HF; cbn; lia).
  assert (PT : forall t, In t tables -> t_rows t = 2 ^ k /\ t_cols t = k_polynomials element). { intros t Ht. clear - HF Ht. induction HF as [|a b l l' P HF IH]; [destruct Ht|]. destruct Ht as [<-|Ht]; [|auto]. destruct (produces_dims _ _ _ _ _ P) as (_ & A & B). auto. }
  destruct (C47_vertical_cells F o dbg C W element (2 ^ m) vertical (2 ^ k) ws tables Ev Sz ltac:(lia) HF') as (T & ET & ShT & RT & CT & GT).
  unfold k_vertical in Ev. rewrite is_pow2 in Ev. injection Ev as <-.
  exists T, (map (leaves (power_sx (2 ^ m)) ETrace) cs). assert (SXm : simple (power_sx (2 ^ m))).
  { cbn. rewrite pow_Z. split; [apply Z.pow_nonneg; lia|]. apply Z.pow_lt_mono_r; lia. }
  split.
  - split; [cbn [k_size]; rewrite Sz, Nat.pow_add_r; reflexivity|]. split; [exact ET|]. cbn [k_claim k_constraints k_polynomials]. split.
    + destruct ws as [|w1 ws0]; [discriminate Hd0|]. cbn in Hd0. injection Hd0 as ->. cbn [map]. rewrite K0. cbn [bind]. apply all_leaves. intros c. apply power_leaves.
    + intros x Hx. apply in_map_iff in Hx as (y & <- & Hy). destruct (H0 y Hy) as (U & Fr & Rf). split; [apply leaves_usizes; [exact SXm|intros; exact I|exact U]|]. split; [apply leaves_fraction; [exact SXm|intros; exact I|exact Fr]|].
      intros i j R. apply refers_leaves in R as (i' & j' & R1 & R2); [|intros ? ? []]. cbn in R2. destruct R2 as [-> ->]. destruct (Rf i' j' R1) as [A1 A2]. split; [exact A1|].
      assert (2 ^ Z.of_nat k <= 2 ^ Z.of_nat (k + m))%Z by (apply Z.pow_le_mono_r; lia). lia.
  - assert (X : forall i r, fpw o (fpw o (w (k + m)) (i * 2 ^ k + r)) (2 ^ m) = fpw o (w k) r).
    { intros i r. rewrite <- (fpw_mul o L), Nat.mul_comm, (fpw_mul o L), (w_pow o L e M w SD k m HM), (fpw_add o L), Nat.mul_comm, (fpw_mul o L), (w_one o e M w SD k) by lia. rewrite (fpw_one o L). pose proof (F_R (law_field o L)) as RR. apply (Rmul_1_l RR). }
    assert (V : forall i t r c, nth_error tables i = Some t -> r < 2 ^ k -> In c cs ->
      (violated o (fpw o (w (k + m)) (i * 2 ^ k + r)) (row_trace T (i * 2 ^ k + r)) (leaves (power_sx (2 ^ m)) ETrace c) <-> violated o (fpw o (w k) r) (row_trace t r) c)).
    { intros i t r c Hi Hr Hc. assert (Him : i < 2 ^ m) by (rewrite <- LT; apply nth_error_Some; congruence).
      pose proof (leaves_violated o (power_sx (2 ^ m)) ETrace SXm (fun _ _ => I) (fpw o (w (k + m)) (i * 2 ^ k + r)) (row_trace T (i * 2 ^ k + r)) (fpw o (w k) r)) as Q.
      destruct (SI c Hc r Hr) as [In|Out].
      - apply Q; [intros u; rewrite value_power, X; tauto|]. intros i' j R u. rewrite value_trace. destruct (PT t (nth_error_In _ _ Hi)) as [Rt Ct]. destruct (H0 c Hc) as (_ & _ & Rf). destruct (Rf i' j R) as [Hi' _].
        rewrite (row_get T (2 ^ k * 2 ^ m)), (row_get t (2 ^ k)) by assumption. specialize (In i' j R).
        assert (E1 : ((Z.of_nat r + j) mod Z.of_nat (2 ^ k) = Z.of_nat r + j)%Z) by (apply Z.mod_small; exact In). rewrite E1. set (r' := Z.to_nat (Z.of_nat r + j)).
        assert (Er : (Z.of_nat r + j = Z.of_nat r')%Z) by (unfold r'; lia). assert (Hr' : r' < 2 ^ k) by lia.
        assert (B : i * 2 ^ k + r' < 2 ^ k * 2 ^ m) by (rewrite (Nat.mul_comm (2 ^ k)); apply cell_lt; assumption).
        assert (E2 : ((Z.of_nat (i * 2 ^ k + r) + j) mod Z.of_nat (2 ^ k * 2 ^ m) = Z.of_nat (i * 2 ^ k + r'))%Z) by (rewrite Z.mod_small; lia).
        rewrite E2, Nat2Z.id, GT by assumption. rewrite Nat.div_add_l, (Nat.div_small r'), Nat.add_0_r by lia. rewrite Hi. rewrite (Nat.add_comm (i * 2 ^ k)), Nat.mod_add, Nat.mod_small by lia. tauto.
      - split; [intros Vc; exfalso|intros Vc; exfalso; exact (Out _ Vc)]. apply (Out (row_trace T (i * 2 ^ k + r))). apply Q; [intros u; rewrite value_power, X; tauto| |exact Vc]. intros i' j _ u. apply value_trace. }
    unfold holds. split.
    + intros H t Ht r c Hr Hc Vc. apply In_nth_error in Ht as (i & Hi). assert (Him : i < 2 ^ m) by (rewrite <- LT; apply nth_error_Some; congruence).
      apply (H (i * 2 ^ k + r) (leaves (power_sx (2 ^ m)) ETrace c)); [rewrite Nat.pow_add_r, (Nat.mul_comm (2 ^ k)); apply cell_lt; assumption|apply in_map, Hc|]. apply (V i t); assumption.
    + intros H row c' Hrow Hc' Vc. apply in_map_iff in Hc' as (c & <- & Hc). rewrite Nat.pow_add_r in Hrow. pose proof (Nat.div_mod row (2 ^ k) ltac:(lia)) as D. pose proof (Nat.mod_upper_bound row (2 ^ k) ltac:(lia)) as UB.
      assert (Hd : row / 2 ^ k < 2 ^ m) by (apply Nat.div_lt_upper_bound; lia). destruct (nth_error tables (row / 2 ^ k)) as [t|] eqn:Et; [|apply nth_error_None in Et; lia].
      rewrite (Nat.mul_comm (2 ^ k)) in D. rewrite D in Vc. apply (V (row / 2 ^ k) t) in Vc; [|exact Et|exact UB|exact Hc]. exact (H t (nth_error_In _ _ Et) _ c UB Hc Vc).
Qed.
End Check.

(** Side by side: the check accepts exactly if it accepts both parts. [produces] also says that the combination can
    be combined further. *)
Theorem C47_horizontal : forall F (o : ops F), lawful o -> forall e M w, sound o e M w -> forall dbg C W C' W' (left : component F C W) (right : component F C' W') wl wr k tl tr cl cr,
  k <= M -> k < 63 -> produces o left wl k tl cl -> produces o right wr k tr cr ->
  (exists T cs, produces o (k_horizontal dbg left right) (wl, wr) k T cs) /\
  (k_check o e (k_horizontal dbg left right) (wl, wr) = Some None <-> k_check o e left wl = Some None /\ k_check o e right wr = Some None).
Proof.
  intros F o L e M w SD dbg C W C' W' left right wl wr k tl tr cl cr Hk H63 Pl Pr. destruct (horizontal_ok o w dbg left right wl wr k tl tr cl cr Pl Pr) as (T & cs & P & H). split; [exists T, cs; exact P|].
  destruct (check_holds o L e M w SD _ _ _ _ _ Hk H63 P) as (r & E & Hr). destruct (check_holds o L e M w SD _ _ _ _ _ Hk H63 Pl) as (r1 & E1 & H1). destruct (check_holds o L e M w SD _ _ _ _ _ Hk H63 Pr) as (r2 & E2 & H2). rewrite E, E1, E2.
  split; [intros Q|intros [Q1 Q2]].
  - injection Q as ->. destruct (proj1 H (proj1 Hr eq_refl)) as [A1 A2]. split; f_equal; tauto.
  - injection Q1 as ->. injection Q2 as ->. f_equal. apply Hr, H. split; tauto.
Qed.
Print Assumptions C47_horizontal.
(** Parts of different sizes panic. *)
Theorem C47_horizontal_sizes : forall F (o : ops F) e dbg C W C' W' (left : component F C W) (right : component F C' W') w, k_size left <> k_size right ->
  trace_table o (k_horizontal dbg left right) w = None /\ k_check o e (k_horizontal dbg left right) w = None.
Proof.
  intros F o e dbg C W C' W' left right w N. assert (E : k_size (k_horizontal dbg left right) = None).
  { cbn. destruct (k_size left) as [a|], (k_size right) as [b|]; try reflexivity. cbn [bind]. destruct (Nat.eqb_spec a b); [congruence|reflexivity]. }
  unfold trace_table, k_check. rewrite E. split; reflexivity.
Qed.
Print Assumptions C47_horizontal_sizes.

(** Folded: if the constraints select rows only, the check accepts exactly if it accepts the element. *)
Theorem C47_fold : forall F (o : ops F), lawful o -> forall e M w, sound o e M w -> forall dbg C W (element : component F C W) folds folded wit k t cs,
  folds < 64 -> k + folds <= M -> k + folds < 63 -> k_fold dbg element folds = Some folded -> produces o element wit k t cs -> (forall c, In c cs -> selects_rows o (2 ^ k) c) ->
  (exists T cs', produces o folded wit (k + folds) T cs') /\ (k_check o e folded wit = Some None <-> k_check o e element wit = Some None).
Proof.
  intros F o L e M w SD dbg C W element f folded wit k t cs Hf HM H63 Ek P SR. destruct (fold_ok o L e M w SD dbg element folded wit k f t cs Hf HM Ek P SR) as (T & cs' & P' & H). split; [exists T, cs'; exact P'|].
  apply (check_iff o L e M w SD folded element wit wit (k + f) k T t cs' cs); try assumption; lia.
Qed.
Print Assumptions C47_fold.

(** On top of each other, with one witness for each element and the same constraints for all their claims: if the
    constraints stay inside of the element where they matter, the check accepts exactly if it accepts every element. *)
Theorem C47_vertical : forall F (o : ops F), lawful o -> forall e M w, sound o e M w -> forall dbg C W (element : component F C W) vertical m ws k cs,
  k + m <= M -> k + m < 63 -> k_vertical dbg element (2 ^ m) = Some vertical -> length ws = 2 ^ m ->
  (forall wit, In wit ws -> exists t, produces o element wit k t cs) -> (forall c, In c cs -> stays_inside o (w k) (2 ^ k) c) ->
  (exists T cs', produces o vertical ws (k + m) T cs') /\ (k_check o e vertical ws = Some None <-> forall wit, In wit ws -> k_check o e element wit = Some None).
Proof.
  intros F o L e M w SD dbg C W element vertical m ws k cs HM H63 Ev Hl HP SI.
  assert (HF : exists tables, Forall2 (fun wit t => produces o element wit k t cs) ws tables).
  { clear - HP. induction ws as [|a ws IH]; [exists []; constructor|]. destruct IH as (l & Hl); [intros x Hx; apply HP; right; exact Hx|]. destruct (HP a (or_introl eq_refl)) as (t & Ht). exists (t :: l). constructor; assumption. }
  destruct HF as (tables & HF). destruct (vertical_ok o L e M w SD dbg element vertical m ws k tables cs HM H63 Ev Hl HF SI) as (T & cs' & P & H). split; [exists T, cs'; exact P|].
  destruct (check_holds o L e M w SD _ _ _ _ _ HM H63 P) as (r & E & Hr). rewrite E.
  assert (Q : (forall t, In t tables -> holds o (w k) (2 ^ k) t cs) <-> (forall wit, In wit ws -> k_check o e element wit = Some None)).
  { clear - L SD HM H63 HF. induction HF as [|a t ws tables P HF IH]; [split; intros _ x []|]. destruct (check_holds o L e M w SD element a k t cs ltac:(lia) ltac:(lia) P) as (r & E & Hr).
    split; intros A x Hx.
    - destruct Hx as [<-|Hx]; [rewrite E; f_equal; apply Hr, A; left; reflexivity|]. apply IH; [|exact Hx]. intros y Hy. apply A. right. exact Hy.
    - destruct Hx as [<-|Hx]; [apply Hr; pose proof (A a (or_introl eq_refl)) as B; congruence|]. apply IH; [|exact Hx]. intros y Hy. apply A. right. exact Hy. }
  rewrite <- Q, <- H, <- Hr. split; [intros B; injection B; auto|intros ->; reflexivity].
Qed.
Print Assumptions C47_vertical.
(** [new] panics unless the number of elements is a power of two, and so does [constraints] without a claim. *)
Theorem C47_vertical_panics : forall F dbg C W (element : component F C W) size,
  (k_vertical dbg element size = None <-> forall m, size <> 2 ^ m) /\ forall vertical, k_vertical dbg element size = Some vertical -> k_constraints vertical [] = None.
Proof.
  intros F dbg C W element size. unfold k_vertical. split.
  - destruct (is_power_of_two size) eqn:E; split; try discriminate; try reflexivity.
    + intros H. exfalso. apply (H (Nat.log2 size)). apply is_pow2_inv, E.
    + intros _ m ->. rewrite is_pow2 in E. discriminate.
  - intros v. destruct (is_power_of_two size); [|discriminate]. intros E. injection E as <-. reflexivity.
Qed.
Print Assumptions C47_vertical_panics.
(** Deviation: only the first claim enters the constraints; the others are not checked. *)
Theorem C47_vertical_claims_deviation : forall F dbg C W (element : component F C W) size vertical c cs cs',
  k_vertical dbg element size = Some vertical -> k_constraints vertical (c :: cs) = k_constraints vertical (c :: cs').
Proof. intros F dbg C W element size vertical c cs cs' E. unfold k_vertical in E. destruct (is_power_of_two size); [|discriminate]. injection E as <-. reflexivity. Qed.
Print Assumptions C47_vertical_claims_deviation.

(** Deviation: constraints that refer to a neighbouring row cyclically are moved across the elements. Two elements,
    each with equal cells, are both accepted, and their combination is not. *)
Definition cyclic : component (fe tiny_field) unit (fe tiny_field) :=
  Component 1 (Some 2) (fun _ => tt) (fun _ => Some [e_div (e_sub (ETrace 0 1) (ETrace 0 0)) (e_sub (EExp EX 2) (EConst (tiny 1)))]) (fun _ _ x => Some [(0, 0, x); (0, 1, x)]).
Theorem C47_vertical_crossing_deviation : exists vertical, k_vertical true cyclic 2 = Some vertical /\
  k_check tiny_ops tiny_engine cyclic (tiny 5) = Some None /\ k_check tiny_ops tiny_engine cyclic (tiny 6) = Some None /\
  k_check tiny_ops tiny_engine vertical [tiny 5; tiny 6] = Some (Some (1, 0)).
Proof. eexists. split; [reflexivity|]. split; [|split]; vm_compute; reflexivity. Qed.
Print Assumptions C47_vertical_crossing_deviation.
