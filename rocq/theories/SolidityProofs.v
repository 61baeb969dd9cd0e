(** Lemmas on the text of a proof. *)
Require Import Ascii String ZArith Lia Bool List.
From Verif Require Import Word U256Spec U256Model BinaryModel KnuthModel EncodingModel EncodingSpec EncodingProofs FieldSig FieldAlgModel FieldModel FieldInstance Arr FftModel StarkBase PolyModel TraceModel ExprModel
  HashModel MerkleModel ChannelSpec ChannelModel PowModel QueryModel FriModel OodsModel StarkModel StarkSpec StarkProofs AcceptSpec AcceptProofs AcceptMain SolidityModel SoliditySpec.
Import ListNotations.
Open Scope nat_scope.

(** ** The text *)
Lemma hex_of_char d : digit 16 d -> hex_char d = hex_of d.
Proof. intros H. assert (C : In d (map Z.of_nat (seq 0 16))) by (apply in_map_iff; exists (Z.to_nat d); split; [unfold digit in H; lia|apply in_seq; unfold digit in H; lia]). cbn [seq map] in C. repeat (destruct C as [<-|C]; [reflexivity|]). destruct C. Qed.
Lemma hex_shown b : Forall (digit 256) b -> hex_encode b = flat_map (fun b => [hex_of (b / 16); hex_of (b mod 16)]) b.
Proof.
  induction 1 as [|x l Hx _ IH]; [reflexivity|]. unfold hex_encode in *. cbn [flat_map]. rewrite IH. unfold digit in Hx.
  rewrite !hex_of_char by (unfold digit; (split; [apply Z.div_pos; lia|apply Z.div_lt_upper_bound; lia]) || (apply Z.mod_pos_bound; lia)). reflexivity.
Qed.
Lemma word_shown b : Forall (digit 256) b -> sol_word b = show b.
Proof. intros H. unfold sol_word, show. rewrite (hex_shown b H). reflexivity. Qed.
Lemma entries_join {A} (f : A -> list Z) : forall l x, sol_entries f l x = join (codes "," ++ nl) (map f (l ++ [x])) ++ nl.
Proof.
  induction l as [|y l IH]; intros x; [reflexivity|]. cbn [sol_entries]. rewrite IH. rewrite <- app_comm_cons. cbn [map]. destruct (map f (l ++ [x])) as [|z zs] eqn:E; [destruct l; discriminate E|].
  change (join (codes "," ++ nl) (f y :: z :: zs)) with (f y ++ (codes "," ++ nl) ++ join (codes "," ++ nl) (z :: zs)). rewrite <- !app_assoc. reflexivity.
Qed.
Lemma vec_shown {A} (f : A -> list Z) l : sol_vec f l = show_list f l.
Proof.
  unfold sol_vec. destruct (rev l) as [|x r] eqn:E; apply (f_equal (@rev A)) in E; rewrite rev_involutive in E; subst l; [reflexivity|]. cbn [rev]. rewrite entries_join. unfold show_list. destruct (rev r ++ [x]) as [|y ys] eqn:E; [destruct (rev r); discriminate E|].
  rewrite <- !app_assoc. reflexivity.
Qed.
Lemma show_list_map {A C} (f : C -> list Z) (g : A -> C) l : show_list f (map g l) = show_list (fun x => f (g x)) l.
Proof. destruct l; [reflexivity|]. unfold show_list. cbn [map]. rewrite map_map. reflexivity. Qed.
Lemma show_list_ext {A} (f g : A -> list Z) l : (forall x, In x l -> f x = g x) -> show_list f l = show_list g l.
Proof. intros H. destruct l; [reflexivity|]. unfold show_list. rewrite (map_ext_in f g _ H). reflexivity. Qed.

(** ** What is read *)
Definition unread (v : verifier) : list Z := skipn (proof_index v) (vproof v).
Definition takes {E A} (m : act verifier E A) (g : A -> list word) : Prop :=
  forall v a v', Forall (digit 256) (unread v) -> m v = Some (Good (a, v')) -> unread v = concat (g a) ++ unread v' /\ Forall (fun x => length x = 32) (g a).
Lemma skipn_plus {A} : forall i n (l : list A), skipn (i + n) l = skipn n (skipn i l).
Proof. induction i as [|i IH]; intros n l; [reflexivity|]. destruct l as [|x l]; [cbn; destruct n; reflexivity|]. apply IH. Qed.
Lemma take_left v n b c : v_take v n = Some b -> unread v = b ++ unread (Verifier c (vproof v) (proof_index v + n)) /\ length b = n.
Proof.
  unfold v_take. destruct (Nat.ltb_spec (length (vproof v)) (proof_index v + n)) as [|H]; [discriminate|]. intros [= <-]. unfold unread. cbn [proof_index vproof]. split.
  - rewrite skipn_plus. symmetry. apply firstn_skipn.
  - rewrite firstn_length, skipn_length. lia.
Qed.
Lemma takes_ret {E A} (a : A) : takes (E := E) (ret a) (fun _ => []).
Proof. intros v b v' _ [= <- <-]. split; [reflexivity|constructor]. Qed.
Lemma takes_bind {E A C} (m : act verifier E A) (k : A -> act verifier E C) g h f : takes m g -> (forall a, takes (k a) (h a)) -> (forall a s s' c, k a s = Some (Good (c, s')) -> f c = g a ++ h a c) -> takes (act_bind m k) f.
Proof.
  intros T1 T2 Hf v c v' D E0. apply bind_good in E0 as (a & s & E1 & E2). destruct (T1 v a s D E1) as (L1 & F1). rewrite L1 in D. apply Forall_app in D as [_ D]. destruct (T2 a s c v' D E2) as (L2 & F2).
  rewrite (Hf a s v' c E2), concat_app, <- app_assoc, <- L2. split; [exact L1|apply Forall_app; split; assumption].
Qed.
Lemma takes_map {E A C} (f : A -> act verifier E C) g : (forall x, takes (f x) g) -> forall l, takes (act_map f l) (fun ys => concat (map g ys)).
Proof.
  intros T. induction l as [|x l IH]; cbn [act_map].
  - intros v b v' _ [= <- <-]. split; [reflexivity|constructor].
  - apply (takes_bind _ _ g (fun y ys => match ys with [] => [] | _ :: ys => concat (map g ys) end)); [apply T| |].
    + intros y. intros v ys v' D E0. apply bind_good in E0 as (ys' & s & E1 & E2). injection E2 as <- <-. exact (IH v ys' s D E1).
    + intros y s s' ys E0. apply bind_good in E0 as (ys' & s1 & E1 & E2). injection E2 as <- <-. reflexivity.
Qed.
Lemma takes_draw {E A} (f : coin -> option (A * coin)) v a v' : chan (E := E) (v_coin f) v = Some (Good (a, v')) -> unread v' = unread v.
Proof. intros H. apply chan_good in H. unfold v_coin in H. destruct (f (vcoin v)) as [[x c]|]; [|discriminate H]. injection H as <- <-. reflexivity. Qed.

Section Reads.
Context {F : Type} (o : ops F) (e : engine F) (keccak : list Z -> list Z) (enc : F -> u256) (dec : u256 -> option F).
Context (sort_idx : list Z -> list Z) (search : list Z -> Z -> option nat) (fuel : nat).
Context (Hx : forall u x, wf u -> dec u = Some x -> enc x = u).
Definition elem_word (x : F) : word := to_bytes_be (enc x).
Lemma holds_word b x : Forall (digit 256) b -> holds dec b x -> elem_word x = b.
Proof. intros D [L H]. unfold elem_word. destruct (from_bytes_be_spec b L D) as [W _]. rewrite (Hx _ _ W H). apply to_from_bytes; assumption. Qed.
Lemma takes_hash {E} : takes (E := E) (chan (replay_hash keccak)) (fun h => [h]).
Proof.
  intros v h v' _ H. apply chan_good in H. unfold replay_hash, read_32_bytes in H. destruct (v_take v 32) as [b|] eqn:Et; [|discriminate H]. cbn [bind] in H. injection H as <- <-.
  destruct (take_left v 32 b (coin_write keccak (vcoin v) b) Et) as (L & Lb). cbn [concat]. rewrite app_nil_r. split; [exact L|constructor; [exact Lb|constructor]].
Qed.
Lemma takes_elem {E} : takes (E := E) (chan (replay_elem e keccak dec)) (fun x => [elem_word x]).
Proof.
  intros v x v' D H. apply chan_good in H. unfold replay_elem, replay_felt, replay_u256, read_32_bytes in H. destruct (v_take v 32) as [b|] eqn:Et; [|discriminate H]. cbn [bind] in H.
  destruct (in_range (edbg e) (from_bytes_be b)) as [u|] eqn:Er; cbn [bind] in H; [|discriminate H]. apply in_range_same in Er. subst u. destruct (dec (from_bytes_be b)) as [y|] eqn:Ed; cbn [bind] in H; [|discriminate H]. injection H as <- <-.
  destruct (take_left v 32 b (coin_write keccak (vcoin v) b) Et) as (L & Lb). cbn [concat]. rewrite app_nil_r. rewrite (holds_word b y); [|rewrite L in D; apply Forall_app in D as [D _]; exact D|split; assumption]. split; [exact L|constructor; [exact Lb|constructor]].
Qed.
Lemma takes_many {E A} (f : verifier -> option (A * verifier)) g : takes (E := E) (chan f) g -> forall n, takes (E := E) (chan (replay_many f n)) (fun l => concat (map g l)).
Proof.
  intros T. induction n as [|n IH]; intros v l v' D H; apply chan_good in H; cbn [replay_many] in H.
  - injection H as <- <-. split; [reflexivity|constructor].
  - destruct (f v) as [[x v1]|] eqn:E1; [|discriminate H]. destruct (replay_many f n v1) as [[xs v2]|] eqn:E2; [|discriminate H]. injection H as <- <-.
    destruct (T v x v1 D ltac:(unfold chan; rewrite E1; reflexivity)) as (L1 & F1). rewrite L1 in D. apply Forall_app in D as [_ D]. destruct (IH v1 xs v2 D ltac:(unfold chan; rewrite E2; reflexivity)) as (L2 & F2).
    cbn [map concat]. rewrite concat_app, <- app_assoc, <- L2. split; [exact L1|apply Forall_app; split; assumption].
Qed.
Lemma takes_layer {E} n : takes (E := E) (chan (replay_layer e keccak dec n)) (map elem_word).
Proof.
  intros v l v' D H. apply chan_good in H. destruct (layer_take e keccak dec n v l v' H) as (b & bs & Et & -> & Ec & Hb & Ll). destruct (take_left v _ b (coin_write keccak (vcoin v) b) Et) as (L & Lb).
  assert (Db : Forall (digit 256) b) by (rewrite L in D; apply Forall_app in D as [D _]; exact D).
  assert (M : map elem_word l = bs). { rewrite <- Ec in Db. clear - Hb Db Hx. induction Hb as [|b0 x bs l H Hb IH]; [reflexivity|]. cbn [concat] in Db. apply Forall_app in Db as [D1 D2]. cbn [map]. rewrite (holds_word b0 x D1 H), (IH D2). reflexivity. }
  rewrite M, Ec. split; [exact L|]. clear - Hb. induction Hb as [|b0 x bs l [H _] Hb IH]; constructor; assumption.
Qed.
Lemma takes_nonce {E} v n v' : Forall (digit 256) (unread v) -> chan (E := E) (replay_nonce keccak) v = Some (Good (n, v')) -> unread v = u64_to_be n ++ unread v' /\ length (u64_to_be n) = 8.
Proof.
  intros D H. apply chan_good in H. unfold replay_nonce in H. destruct (v_take v 8) as [b|] eqn:Et; [|discriminate H]. cbn [bind] in H. injection H as <- <-.
  destruct (take_left v 8 b (coin_write keccak (vcoin v) b) Et) as (L & Lb). rewrite nonce_bytes; [split; assumption|exact Lb|rewrite L in D; apply Forall_app in D as [D _]; exact D].
Qed.
Lemma takes_fri layout : forall size, takes (sol_fri e keccak dec fuel layout size) (fun r => map (c_hash (H := hash)) (fst r)).
Proof.
  induction layout as [|m layout IH]; intros size v r v' D H; cbn [sol_fri] in H.
  - injection H as <- <-. split; [reflexivity|constructor].
  - apply bind_good in H as (sz & s1 & E1 & H). apply lift_good in E1 as [_ ->]. apply bind_good in H as (root & s2 & E2 & H). apply bind_good in H as (c & s3 & E3 & H). apply merkle_good in E3 as [Ec ->]. apply bind_good in H as (x & s4 & E4 & H). apply takes_draw in E4.
    apply bind_good in H as (r' & s5 & E5 & H). injection H as <- <-. destruct (takes_hash _ _ _ D E2) as (L1 & F1). rewrite L1 in D. apply Forall_app in D as [_ D]. rewrite <- E4 in D. destruct (IH sz _ _ _ D E5) as (L2 & F2).
    assert (Er : c_hash (H := hash) c = root) by (revert Ec; unfold from_size_hash; destruct (_ || _); [discriminate|intros [= <-]; reflexivity] || (unfold from_size_hash in Ec; repeat match type of Ec with context [if ?b then _ else _] => destruct b end; try discriminate Ec; injection Ec as <-; reflexivity)).
    cbn [concat] in L1. rewrite app_nil_r in L1. cbn [fst map concat]. rewrite Er, <- app_assoc. rewrite <- L2, E4. split; [exact L1|constructor; [inversion F1; assumption|exact F2]].
Qed.
Lemma takes_path c idx : takes (sol_path keccak sort_idx c idx) (fun l => l).
Proof.
  intros v l v' D H. unfold sol_path in H. apply bind_good in H as (r & s1 & E1 & H). apply lift_good in E1 as [_ ->]. apply bind_good in H as (n & s2 & E2 & H). apply merkle_good in E2 as [_ ->].
  destruct (takes_many _ (fun h => [h]) takes_hash _ v l v' D H) as (L & Fl). assert (E0 : concat (map (fun h : word => [h]) l) = l) by (clear; induction l as [|x l IH]; [reflexivity|cbn [map concat app]; rewrite IH; reflexivity]). rewrite E0 in *. split; assumption.
Qed.
Definition layer_words (r : list (list F) * list (list hash)) : list (list word * list word) := List.combine (map (map elem_word) (fst r)) (snd r).
Lemma takes_layers layers : forall idx prev, takes (sol_layers e keccak dec sort_idx search layers idx prev) (fun r => concat (map (fun l => fst l ++ snd l) (layer_words r))).
Proof.
  induction layers as [|[c n] layers IH]; intros idx prev v r v' D H; cbn [sol_layers] in H.
  - injection H as <- <-. split; [reflexivity|constructor].
  - apply bind_good in H as (cs & s1 & E1 & H). apply lift_good in E1 as [_ ->]. apply bind_good in H as (vals & s2 & E2 & H). apply bind_good in H as (hs & s3 & E3 & H). apply bind_good in H as (next & s4 & E4 & H). apply bind_good in H as (r' & s5 & E5 & H). injection H as <- <-.
    assert (T : s4 = s3). { destruct layers as [|[c' n'] layers']; [injection E4 as _ <-; reflexivity|]. apply bind_good in E4 as (s & s6 & E6 & E7). apply lift_good in E6 as [_ ->]. apply lift_good in E7 as [_ ->]. reflexivity. }
    subst s4.
    assert (T2 : takes (E := merror) (act_map (fun i => act_map (fun j => match search prev (i * cs + Z.of_nat j)%Z with Some _ => ret [] | None => do held <- chan (replay_elem e keccak dec); ret [held] end) (seq 0 (Z.to_nat cs))) (dedup_by (fun x => x) idx)) (fun vs => concat (map (fun ys => concat (map (map elem_word) ys)) vs))).
    { apply takes_map. intros i. apply takes_map. intros j. destruct (search prev (i * cs + Z.of_nat j)%Z).
      - intros w a w' _ [= <- <-]. split; [reflexivity|constructor].
      - intros w a w' Dw Hw. apply bind_good in Hw as (x & s & H1 & H2). injection H2 as <- <-. exact (takes_elem _ _ _ Dw H1). }
    destruct (T2 _ _ _ D E2) as (L1 & F1). clear T2. rewrite L1 in D. apply Forall_app in D as [_ D]. destruct (takes_path _ _ _ _ _ D E3) as (L2 & F2). rewrite L2 in D. apply Forall_app in D as [_ D]. destruct (IH _ _ _ _ _ D E5) as (L3 & F3).
    assert (X : concat (map (fun ys => concat (map (map elem_word) ys)) vals) = map elem_word (concat (concat vals))). { clear. induction vals as [|ys vals IH]; [reflexivity|]. cbn [map concat]. rewrite concat_app, map_app, IH, (concat_map _ ys). reflexivity. }
    rewrite X in *. unfold layer_words in *. cbn [fst snd map List.combine concat]. rewrite !concat_app, <- !app_assoc, <- L3, <- L2. split; [exact L1|]. apply Forall_app. split; [exact F1|apply Forall_app; split; assumption].
Qed.
End Reads.

(** ** The run *)
Ltac peel H := repeat match type of H with
  | act_bind ?m ?k ?s = Some (Good ?r) =>
      let a := fresh "a" in let s' := fresh "s" in let E1 := fresh "E" in let H' := fresh "H'" in
      destruct (bind_good m k s r H) as (a & s' & E1 & H'); clear H; rename H' into H; cbv beta in H end.
Section Content.
Context {F : Type} (o : ops F) (e : engine F) (keccak : list Z -> list Z) (enc : F -> u256) (dec : u256 -> option F).
Context (sort_idx : list Z -> list Z) (search : list Z -> Z -> option nat) (fuel : nat).
Context (Hx : forall u x, wf u -> dec u = Some x -> enc x = u).
Lemma digits_words l rest : Forall (digit 256) (concat l ++ rest) -> Forall (fun x : word => Forall (digit 256) x) l.
Proof. intros D. apply Forall_app in D as [D _]. induction l as [|x l IH]; [constructor|]. cbn [concat] in D. apply Forall_app in D as [D1 D2]. constructor; [exact D1|apply IH, D2]. Qed.
Lemma list_shown (l : list word) : Forall (fun x : word => Forall (digit 256) x) l -> show_list sol_word l = show_list show l.
Proof. intros D. apply show_list_ext. intros x Hin. apply word_shown. apply (proj1 (Forall_forall _ _) D x Hin). Qed.
Lemma elems_shown (l : list F) : Forall (fun x : word => Forall (digit 256) x) (map (elem_word enc) l) -> sol_vec (sol_elem enc) l = show_list show (map (elem_word enc) l).
Proof. intros D. rewrite vec_shown, show_list_map. apply show_list_ext. intros x Hin. unfold sol_elem. apply word_shown. apply (proj1 (Forall_forall _ _) D (elem_word enc x)), in_map, Hin. Qed.
Lemma layers_length layers : forall idx prev v r v', sol_layers e keccak dec sort_idx search layers idx prev v = Some (Good (r, v')) -> length (fst r) = length (snd r).
Proof.
  induction layers as [|[c n] layers IH]; intros idx prev v r v' H; cbn [sol_layers] in H; [injection H as <- <-; reflexivity|]. peel H. injection H as <- <-. cbn [fst snd length]. f_equal. exact (IH _ _ _ _ _ E3).
Qed.
Lemma combine_fst {A C} : forall (a : list A) (b : list C), length a = length b -> map fst (List.combine a b) = a.
Proof. induction a as [|x a IH]; intros [|y b] H; try discriminate H; [reflexivity|]. cbn [List.combine map fst]. rewrite IH by (injection H; auto). reflexivity. Qed.
Lemma combine_snd {A C} : forall (a : list A) (b : list C), length a = length b -> map snd (List.combine a b) = b.
Proof. induction a as [|x a IH]; intros [|y b] H; try discriminate H; [reflexivity|]. cbn [List.combine map snd]. rewrite IH by (injection H; auto). reflexivity. Qed.
Lemma singles (l : list F) : concat (map (fun x => [elem_word enc x]) l) = map (elem_word enc) l.
Proof. induction l as [|x l IH]; [reflexivity|]. cbn [map concat app]. rewrite IH. reflexivity. Qed.
Lemma field_shown key value : sol_field key value = named key value ++ codes ", " ++ nl.
Proof. unfold sol_field, named. rewrite <- !app_assoc. reflexivity. Qed.
Lemma nonce_shown b : Forall (digit 256) b -> lit """pow_nonce"": ""0x" ++ hex_encode b ++ lit """," = named "pow_nonce" (show b) ++ codes ",".
Proof. intros D. rewrite (hex_shown b D). unfold named, show. rewrite <- !app_assoc. reflexivity. Qed.
Lemma last_shown value : lit """fri_decommitments"": " ++ value ++ lit " " ++ newline = named "fri_decommitments" value ++ codes " " ++ nl.
Proof. unfold named. rewrite <- !app_assoc. reflexivity. Qed.
Lemma step_takes {E A} (m : act verifier E A) g v a v' : takes m g -> Forall (digit 256) (unread v) -> m v = Some (Good (a, v')) ->
  unread v = concat (g a) ++ unread v' /\ Forall (fun x => length x = 32) (g a) /\ Forall (fun x : word => Forall (digit 256) x) (g a) /\ Forall (digit 256) (unread v').
Proof. intros T D H. destruct (T v a v' D H) as (L & S). split; [exact L|]. split; [exact S|]. rewrite L in D. split; [apply (digits_words _ _ D)|]. apply Forall_app in D. apply D. Qed.
Lemma pairs_concat (l : list (list word * list word)) : concat (concat (map (fun x => fst x ++ snd x) l)) = concat (map (fun x => concat (fst x) ++ concat (snd x)) l).
Proof. induction l as [|x l IH]; [reflexivity|]. cbn [map concat]. rewrite !concat_app, IH. reflexivity. Qed.
Lemma layer_fst (r : list (list F) * list (list hash)) : length (fst r) = length (snd r) -> map fst (layer_words enc r) = map (map (elem_word enc)) (fst r).
Proof. intros H. unfold layer_words. apply combine_fst. rewrite map_length. exact H. Qed.
Lemma layer_snd (r : list (list F) * list (list hash)) : length (fst r) = length (snd r) -> map snd (layer_words enc r) = snd r.
Proof. intros H. unfold layer_words. apply combine_snd. rewrite map_length. exact H. Qed.
Lemma content c claims s0 v text v' : Forall (digit 256) (unread v) -> serialize_channel o e keccak enc dec sort_idx search fuel c claims s0 v = Some (Good (text, v')) ->
  exists ps, sized ps /\ unread v = bytes_of ps ++ unread v' /\ text = s0 ++ text_of ps.
Proof.
  intros D H. unfold serialize_channel in H. cbv zeta in H. peel H. apply ret_good in H. apply pair_equal_spec in H as [-> ->].
  repeat match goal with X : lift _ _ = _ |- _ => apply lift_good in X as [_ ->] | X : merr _ _ = _ |- _ => apply merkle_good in X as [_ ->] | X : chan (v_coin _) _ = _ |- _ => apply takes_draw in X end.
  destruct (step_takes _ _ _ _ _ (takes_hash keccak) D E0) as (L0 & S0 & D0 & D'). clear D E0. rewrite <- E2 in D'.
  destruct (step_takes _ _ _ _ _ (takes_hash keccak) D' E3) as (L1 & S1 & D1 & D). clear D' E3. rewrite <- E5 in D.
  destruct (step_takes _ _ _ _ _ (takes_many _ _ (takes_elem e keccak enc dec Hx) _) D E8) as (L2 & S2 & D2 & D'). clear D E8.
  destruct (step_takes _ _ _ _ _ (takes_many _ _ (takes_elem e keccak enc dec Hx) _) D' E11) as (L3 & S3 & D3 & D). clear D' E11. rewrite <- E12 in D.
  destruct (step_takes _ _ _ _ _ (takes_fri e keccak dec fuel _ _) D E13) as (L4 & S4 & D4 & D'). clear D E13.
  destruct (step_takes _ _ _ _ _ (takes_layer e keccak enc dec Hx _) D' E15) as (L5 & S5 & D5 & D). clear D' E15.
  destruct (takes_nonce keccak _ _ _ D E16) as (L6 & S6). clear E16. rewrite L6 in D. apply Forall_app in D as [D6 D]. rewrite <- E17 in D.
  destruct (step_takes _ _ _ _ _ (takes_map _ _ (fun _ => takes_layer e keccak enc dec Hx _) _) D E18) as (L7 & S7 & D7 & D'). clear D E18.
  destruct (step_takes _ _ _ _ _ (takes_path keccak sort_idx _ _) D' E19) as (L8 & S8 & D8 & D). clear D' E19.
  destruct (step_takes _ _ _ _ _ (takes_map _ _ (fun _ => takes_layer e keccak enc dec Hx _) _) D E20) as (L9 & S9 & D9 & D'). clear D E20.
  destruct (step_takes _ _ _ _ _ (takes_path keccak sort_idx _ _) D' E21) as (L10 & S10 & D10 & D). clear D' E21.
  destruct (step_takes _ _ _ _ _ (takes_layers e keccak enc dec sort_idx search Hx _ _ _) D E24) as (L11 & S11 & D11 & _). clear D. pose proof (layers_length _ _ _ _ _ _ E24) as LL. clear E24.
  rewrite singles in *. rewrite <- !concat_map in *.
  exists (Pieces a0 a3 (map (elem_word enc) a8) (map (elem_word enc) a11) (map (c_hash (H := hash)) (fst a13)) (map (elem_word enc) a15) (u64_to_be a16) (map (elem_word enc) (concat a18)) a19 (map (elem_word enc) (concat a20)) a21 (layer_words enc a24)).
  split; [|split].
  - split; [|exact S6]. unfold words. cbn [trace_root constraint_root trace_at_point constraints_at_point layer_roots last_coefficients trace_leaves trace_path constraint_leaves constraint_path layers].
    repeat (apply Forall_app; split); try assumption. constructor; [inversion S0; assumption|]. exact S1.
  - unfold bytes_of. cbn [trace_root constraint_root trace_at_point constraints_at_point layer_roots last_coefficients trace_leaves trace_path constraint_leaves constraint_path layers work].
    rewrite L0, <- E2, L1, <- E5, L2, L3, <- E12, L4, L5, L6, <- E17, L7, L8, L9, L10, L11. cbn [concat]. rewrite !app_nil_r, <- !app_assoc. rewrite pairs_concat. reflexivity.
  - unfold text_of. cbn [trace_root constraint_root trace_at_point constraints_at_point layer_roots last_coefficients trace_leaves trace_path constraint_leaves constraint_path layers work].
    assert (Dl : Forall (fun l => Forall (Forall (digit 256)) (fst l) /\ Forall (Forall (digit 256)) (snd l)) (layer_words enc a24)).
    { revert D11. generalize (layer_words enc a24). clear. induction l as [|x l IH]; intros D; [constructor|]. cbn [map concat] in D. apply Forall_app in D as [D1 D2]. apply Forall_app in D1. constructor; [exact D1|exact (IH D2)]. }
    assert (T1 : sol_vec (fun c0 : commitment (H := hash) => sol_hash (c_hash c0)) (fst a13) = show_list show (map (c_hash (H := hash)) (fst a13))).
    { rewrite vec_shown. rewrite <- (list_shown _ D4). symmetry. apply show_list_map. }
    assert (T2 : sol_vec (sol_vec (sol_elem enc)) (fst a24) = show_list (show_list show) (map fst (layer_words enc a24))).
    { rewrite (layer_fst _ LL). rewrite vec_shown, show_list_map. apply show_list_ext. intros l Hin. apply elems_shown.
      rewrite Forall_forall in Dl. apply (in_map (map (elem_word enc))) in Hin. rewrite <- (layer_fst _ LL) in Hin. apply in_map_iff in Hin as (y & <- & Hy). apply (Dl y Hy). }
    assert (T3 : sol_vec (sol_vec sol_hash) (snd a24) = show_list (show_list show) (map snd (layer_words enc a24))).
    { rewrite vec_shown, (layer_snd _ LL). apply show_list_ext. intros l Hin. rewrite vec_shown. apply list_shown.
      rewrite Forall_forall in Dl. rewrite <- (layer_snd _ LL) in Hin. apply in_map_iff in Hin as (y & <- & Hy). apply (Dl y Hy). }
    rewrite T1, T2, T3. clear T1 T2 T3. rewrite !field_shown, nonce_shown by exact D6. rewrite last_shown, !elems_shown by assumption. rewrite !vec_shown. unfold sol_hash. rewrite !word_shown by (inversion D0; inversion D1; assumption).
    change (show_list (fun h : hash => sol_word h)) with (show_list sol_word). rewrite !list_shown by assumption. rewrite <- !app_assoc. reflexivity.
Qed.
End Content.

(** ** The verifier reads the same *)
Section Follow.
Context {F : Type} (o : ops F) (e : engine F) (keccak : list Z -> list Z) (enc : F -> u256) (dec : u256 -> option F).
Context (sort_idx : list Z -> list Z) (sort_nodes : list (Z * hash) -> list (Z * hash)) (search : list Z -> Z -> option nat) (fuel : nat).
Lemma step_lift {A C} (x : option A) a (k : A -> act verifier merror C) s : x = Some a -> act_bind (lift x) k s = k a s.
Proof. intros ->. reflexivity. Qed.
Lemma step_chan {A C} (f : verifier -> option (A * verifier)) a s' (k : A -> act verifier merror C) s : f s = Some (a, s') -> act_bind (chan f) k s = k a s'.
Proof. intros H. unfold act_bind, chan. rewrite H. reflexivity. Qed.
Lemma step_merr {A C} (x : res A) a (k : A -> act verifier merror C) s : x = Ok a -> act_bind (merr x) k s = k a s.
Proof. intros ->. reflexivity. Qed.
Lemma step_good {A C} (m : act verifier merror A) a s' (k : A -> act verifier merror C) s : m s = Some (Good (a, s')) -> act_bind m k s = k a s'.
Proof. intros H. unfold act_bind. rewrite H. reflexivity. Qed.
Lemma follow_map {A C C'} (f : A -> act verifier verror C) (g : A -> act verifier merror C') : (forall x v y v', f x v = Some (Good (y, v')) -> exists z, g x v = Some (Good (z, v'))) ->
  forall l v ys v', act_map f l v = Some (Good (ys, v')) -> exists zs, act_map g l v = Some (Good (zs, v')).
Proof.
  intros Hfg. induction l as [|x l IH]; intros v ys v' H; cbn [act_map] in *.
  - injection H as <- <-. exists []. reflexivity.
  - peel H. apply ret_good in H. apply pair_equal_spec in H as [-> ->]. destruct (Hfg _ _ _ _ E) as (z & Hz). destruct (IH _ _ _ E0) as (zs & Hzs). exists (z :: zs). rewrite (step_good _ _ _ _ _ Hz), (step_good _ _ _ _ _ Hzs). reflexivity.
Qed.
Lemma follow_fri layout : forall size v r v', replay_fri e keccak dec fuel layout size v = Some (Good (r, v')) -> sol_fri e keccak dec fuel layout size v = Some (Good ((map fst (fst r), snd r), v')).
Proof.
  induction layout as [|m layout IH]; intros size v r v' H; cbn [replay_fri sol_fri] in *.
  - injection H as <- <-. reflexivity.
  - peel H. apply ret_good in H. apply pair_equal_spec in H as [-> ->]. apply lift_good in E as [E ->]. apply chan_good in E0. apply merkle_good in E1 as [E1 ->]. apply chan_good in E2.
    rewrite (step_lift _ _ _ _ E), (step_chan _ _ _ _ _ E0), (step_merr _ _ _ _ E1), (step_chan _ _ _ _ _ E2), (step_good _ _ _ _ _ (IH _ _ _ _ E3)). reflexivity.
Qed.
Lemma follow_path c idx v p v' : decommit keccak sort_idx c idx v = Some (Good (p, v')) -> exists hs, sol_path keccak sort_idx c idx v = Some (Good (hs, v')).
Proof.
  unfold decommit, sol_path. intros H. peel H. apply lift_good in E as [E ->]. apply merkle_good in E0 as [E0 ->]. apply chan_good in E1. apply lift_good in E2 as [_ ->]. apply merkle_good in H as [_ ->].
  exists a1. rewrite (step_lift _ _ _ _ E), (step_merr _ _ _ _ E0). unfold chan. rewrite E1. reflexivity.
Qed.
Lemma check_same p l err v u v' : check_leaves keccak enc sort_nodes (F := F) p l err v = Some (Good (u, v')) -> v' = v.
Proof. unfold check_leaves. intros H. peel H. apply lift_good in E as [_ ->]. destruct a; [|discriminate H]. injection H as _ <-. reflexivity. Qed.
Lemma follow_layers eval_x known : (forall z v y v', known z v = Some (Good (y, v')) -> v' = v) -> forall layers first idx prev folds step len v r v',
  fri_layers o e keccak enc dec sort_idx sort_nodes search eval_x known layers first idx prev folds step len v = Some (Good (r, v')) ->
  exists r', sol_layers e keccak dec sort_idx search (map (fun l => (fst (fst l), snd l)) layers) idx prev v = Some (Good (r', v')).
Proof.
  intros Hkn. induction layers as [|[[c x] n] layers IH]; intros first idx prev folds step len v r v' H; cbn [fri_layers] in H.
  - injection H as <- <-. exists ([], []). reflexivity.
  - cbn [map fst snd sol_layers]. cbv zeta in H |- *. peel H. apply lift_good in E as [E ->]. apply lift_good in E1 as [_ ->]. apply lift_good in E3 as [_ ->]. apply lift_good in E4 as [_ ->]. apply check_same in E5. subst s5.
    rewrite (step_lift _ _ _ _ E).
    assert (V : exists zs : list (list (list F)), act_map (fun i => act_map (fun j => match search prev (i * a + Z.of_nat j)%Z return act verifier merror (list F) with Some _ => ret [] | None => do held <- chan (replay_elem e keccak dec); ret [held] end) (seq 0 (Z.to_nat a))) (dedup_by (fun x => x) idx) v = Some (Good (zs, s0))).
    { revert E0. apply follow_map. intros i w y w' Hi. peel Hi. apply ret_good in Hi. apply pair_equal_spec in Hi as [-> ->]. revert E0. apply follow_map. intros j u z u' Hj. destruct (search prev (i * a + Z.of_nat j)%Z) as [q|].
      - assert (u' = u). { destruct first; [exact (Hkn _ _ _ _ Hj)|]. destruct (folds_get folds _); [injection Hj as _ <-; reflexivity|discriminate Hj]. } subst u'. exists []. reflexivity.
      - apply chan_good in Hj. exists [z]. rewrite (step_chan _ _ _ _ _ Hj). reflexivity. }
    destruct V as (zs & V). rewrite (step_good _ _ _ _ _ V). destruct (follow_path _ _ _ _ _ E2) as (hs & Hh). rewrite (step_good _ _ _ _ _ Hh).
    destruct (IH _ _ _ _ _ _ _ _ _ H) as (r' & Hr).
    assert (N : (match map (fun l => (fst (fst l), snd l)) layers return act verifier merror (list Z) with [] => ret (dedup_by (fun x => x) idx) | (_, n) :: _ => do s <- lift (ushl1 (edbg e) (Z.of_nat n)); lift (option_all (map (fun ind => udiv ind s) (dedup_by (fun x => x) idx))) end) s2 = Some (Good (a6, s6))).
    { destruct layers as [|[[c' x'] n'] layers']; cbn [map fst snd]; [injection E6 as <- <-; reflexivity|]. apply bind_good in E6 as (s & q & H1 & H2). apply lift_good in H1 as [H1 ->]. apply lift_good in H2 as [H2 ->]. rewrite (step_lift _ _ _ _ H1). unfold lift. rewrite H2. reflexivity. }
    rewrite (step_good _ _ _ _ _ N), (step_good _ _ _ _ _ Hr). eexists. reflexivity.
Qed.
Lemma combine_layers {A C D} : forall (a : list (A * C)) (b : list D), map (fun l => (fst (fst l), snd l)) (List.combine a b) = List.combine (map fst a) b.
Proof. induction a as [|x a IH]; intros [|y b]; try reflexivity. cbn [List.combine map fst snd]. rewrite IH. reflexivity. Qed.
Lemma nonce_counter v v' r : unread v = unread v' -> vproof v = vproof v' -> proof_index v = proof_index v' -> digest (vcoin v) = digest (vcoin v') -> replay_nonce keccak v = Some r -> replay_nonce keccak v' = Some r.
Proof. intros _ E1 E2 E3. unfold replay_nonce, v_take, coin_write. rewrite E1, E2, E3. exact (fun H => H). Qed.
Lemma follow_leaves n l v ys v' : act_map (E := verror) (fun index : Z => do l <- chan (replay_layer e keccak dec n); ret (index, l)) l v = Some (Good (ys, v')) ->
  exists zs : list (list F), act_map (E := merror) (fun _ : Z => chan (replay_layer e keccak dec n)) l v = Some (Good (zs, v')).
Proof. apply follow_map. intros x u y u' Hu. peel Hu. apply ret_good in Hu. apply pair_equal_spec in Hu as [-> ->]. apply chan_good in E. exists a. unfold chan. rewrite E. reflexivity. Qed.
Lemma follow c claims s0 v r : verify_channel o e keccak enc dec sort_idx sort_nodes search fuel c claims v = Some (Good r) ->
  exists text v', serialize_channel o e keccak enc dec sort_idx search fuel c claims s0 v = Some (Good (text, v')) /\ unread v' = [].
Proof.
  intros H. unfold verify_channel in H. cbv zeta in H. peel H. destruct (negb _) eqn:Ep in H; [discriminate H|]. clear Ep. peel H. match type of H with (match ?r with _ => _ end) _ = _ => destruct r as [[folds previous] len] end. peel H. match type of H with (if negb ?b then _ else _) _ = _ => rename b into atend end. destruct (negb atend) eqn:En in H; [discriminate H|]. clear H.
  repeat match goal with X : lift _ _ = _ |- _ => apply lift_good in X as [X ->] | X : merkle _ _ _ = _ |- _ => apply merkle_good in X as [X ->] | X : chan _ _ = _ |- _ => apply chan_good in X | X : check_leaves _ _ _ _ _ _ _ = _ |- _ => apply check_same in X; subst end.
  destruct (follow_leaves _ _ _ _ _ E22) as (lv & Hlv). destruct (follow_leaves _ _ _ _ _ E25) as (cv & Hcv).
  destruct (follow_path _ _ _ _ _ E23) as (lh & Hlh). destruct (follow_path _ _ _ _ _ E26) as (ch & Hch).
  pose proof (fun Hkn => follow_layers _ _ Hkn _ _ _ _ _ _ _ _ _ _ E30) as X. destruct X as (lr & Hlr).
  { clear. intros z w y w' Hz. peel Hz. repeat match goal with X : lift _ _ = _ |- _ => apply lift_good in X as [X ->] end. match type of Hz with (match ?r with _ => _ end) _ = _ => destruct r; [injection Hz as _ <-; reflexivity|discriminate Hz] end. }
  rewrite combine_layers in Hlr.
  assert (Hn : replay_nonce keccak s18 = Some (a20, s21)).
  { unfold v_coin, draw_seed in E18. destruct (incr (edbg e) (counter (vcoin s18))); cbn [bind] in E18; [|discriminate E18]. injection E18 as _ <-. exact E20. }
  unfold serialize_channel. cbv zeta.
  rewrite (step_lift _ _ _ _ E), (step_chan _ _ _ _ _ E2), (step_merr _ _ _ _ E3), (step_chan _ _ _ _ _ E4), (step_chan _ _ _ _ _ E5), (step_merr _ _ _ _ E6), (step_chan _ _ _ _ _ E7), (step_lift _ _ _ _ E8), (step_lift _ _ _ _ E9), (step_chan _ _ _ _ _ E10), (step_lift _ _ _ _ E11), (step_lift _ _ _ _ E12), (step_chan _ _ _ _ _ E13), (step_chan _ _ _ _ _ E14).
  rewrite (step_good _ _ _ _ _ (follow_fri _ _ _ _ _ E15)). cbn [fst snd]. rewrite (step_lift _ _ _ _ E16), (step_chan _ _ _ _ _ E17), (step_chan _ _ _ _ _ Hn), (step_chan _ _ _ _ _ E21), (step_good _ _ _ _ _ Hlv), (step_good _ _ _ _ _ Hlh), (step_good _ _ _ _ _ Hcv), (step_good _ _ _ _ _ Hch), (step_lift _ _ _ _ E28), (step_lift _ _ _ _ E29), (step_good _ _ _ _ _ Hlr).
  eexists. exists s31. split; [reflexivity|]. assert (Et : at_end s31 = true) by (destruct atend; [congruence|discriminate En]). apply Nat.eqb_eq in Et. unfold unread. rewrite Et. apply skipn_all.
Qed.
End Follow.

(** ** What follows does not matter *)
Section Grow.
Context {F : Type} (o : ops F) (e : engine F) (keccak : list Z -> list Z) (enc : F -> u256) (dec : u256 -> option F).
Context (sort_idx : list Z -> list Z) (search : list Z -> Z -> option nat) (fuel : nat) (extra : list Z).
Definition grow (v : verifier) : verifier := Verifier (vcoin v) (vproof v ++ extra) (proof_index v).
Definition grows {A} (m : act verifier merror A) : Prop := forall v a v', m v = Some (Good (a, v')) -> m (grow v) = Some (Good (a, grow v')).
Lemma grows_ret {A} (a : A) : grows (ret a).
Proof. intros v b v' [= <- <-]. reflexivity. Qed.
Lemma grows_lift {A} (x : option A) : grows (lift x).
Proof. intros v b v' H. apply lift_good in H as [-> ->]. reflexivity. Qed.
Lemma grows_merr {A} (x : res A) : grows (merr x).
Proof. intros v b v' H. apply merkle_good in H as [-> ->]. reflexivity. Qed.
Lemma grows_bind {A C} (m : act verifier merror A) (k : A -> act verifier merror C) : grows m -> (forall a, grows (k a)) -> grows (act_bind m k).
Proof. intros Hm Hk v c v' H. apply bind_good in H as (a & s & E1 & E2). rewrite (step_good _ _ _ _ _ (Hm _ _ _ E1)). apply Hk, E2. Qed.
Lemma grows_map {A C} (f : A -> act verifier merror C) : (forall x, grows (f x)) -> forall l, grows (act_map f l).
Proof. intros H. induction l as [|x l IH]; cbn [act_map]; [apply grows_ret|]. apply grows_bind; [apply H|]. intros y. apply grows_bind; [exact IH|]. intros ys. apply grows_ret. Qed.
Lemma grows_draw {A} (f : coin -> option (A * coin)) : grows (chan (v_coin f)).
Proof. intros v a v' H. apply chan_good in H. unfold chan, v_coin in *. cbn [vcoin grow]. destruct (f (vcoin v)) as [[x c]|]; [|discriminate H]. injection H as <- <-. reflexivity. Qed.
Lemma take_grow v n b : v_take v n = Some b -> v_take (grow v) n = Some b.
Proof.
  unfold v_take, grow. cbn [vproof proof_index]. rewrite app_length. destruct (Nat.ltb_spec (length (vproof v)) (proof_index v + n)) as [|H]; [discriminate|]. destruct (Nat.ltb_spec (length (vproof v) + length extra) (proof_index v + n)); [lia|].
  intros [= <-]. f_equal. rewrite skipn_app, firstn_app, skipn_length. replace (n - (length (vproof v) - proof_index v)) with 0 by lia. apply app_nil_r.
Qed.
Lemma grows_hash : grows (chan (replay_hash keccak)).
Proof. intros v a v' H. apply chan_good in H. unfold chan, replay_hash, read_32_bytes in *. destruct (v_take v 32) as [b|] eqn:Et; [|discriminate H]. rewrite (take_grow _ _ _ Et). cbn [bind] in *. injection H as <- <-. reflexivity. Qed.
Lemma grows_elem : grows (chan (replay_elem e keccak dec)).
Proof.
  intros v a v' H. apply chan_good in H. unfold chan, replay_elem, replay_felt, replay_u256, read_32_bytes in *. destruct (v_take v 32) as [b|] eqn:Et; [|discriminate H]. rewrite (take_grow _ _ _ Et). cbn [bind] in *.
  destruct (in_range (edbg e) (from_bytes_be b)) as [u|]; cbn [bind] in *; [|discriminate H]. destruct (dec u); cbn [bind] in *; [|discriminate H]. injection H as <- <-. reflexivity.
Qed.
Lemma grows_layer n : grows (chan (replay_layer e keccak dec n)).
Proof.
  intros v a v' H. apply chan_good in H. unfold chan, replay_layer, replay_fri_layer in *. destruct (v_take v (32 * n)) as [b|] eqn:Et; [|discriminate H]. rewrite (take_grow _ _ _ Et). cbn [bind] in *.
  destruct (felts_of (edbg e) (chunks_32 n b)) as [u|]; cbn [bind] in *; [|discriminate H]. destruct (decode_all dec u); cbn [bind] in *; [|discriminate H]. injection H as <- <-. reflexivity.
Qed.
Lemma grows_nonce : grows (chan (replay_nonce keccak)).
Proof. intros v a v' H. apply chan_good in H. unfold chan, replay_nonce in *. destruct (v_take v 8) as [b|] eqn:Et; [|discriminate H]. rewrite (take_grow _ _ _ Et). cbn [bind] in *. injection H as <- <-. reflexivity. Qed.
Lemma grows_many {A} (f : verifier -> option (A * verifier)) : grows (chan f) -> forall n, grows (chan (replay_many f n)).
Proof.
  intros Hf. induction n as [|n IH]; intros v l v' H; apply chan_good in H; unfold chan; cbn [replay_many] in *; [injection H as <- <-; reflexivity|].
  destruct (f v) as [[x v1]|] eqn:E1; [|discriminate H]. destruct (replay_many f n v1) as [[xs v2]|] eqn:E2; [|discriminate H]. injection H as <- <-.
  assert (G1 : f (grow v) = Some (x, grow v1)) by (apply (chan_good (E := merror)), Hf; unfold chan; rewrite E1; reflexivity). assert (G2 : replay_many f n (grow v1) = Some (xs, grow v2)) by (apply (chan_good (E := merror)), IH; unfold chan; rewrite E2; reflexivity). rewrite G1, G2. reflexivity.
Qed.
Ltac gr := repeat first [ apply grows_ret | apply grows_lift | apply grows_merr | apply grows_draw | apply grows_hash | apply grows_elem | apply grows_layer | apply grows_nonce
  | apply grows_many | apply grows_map; intros | apply grows_bind; [|intros] | match goal with |- grows (match ?x with _ => _ end) => destruct x end ].
Lemma grows_fri layout : forall size, grows (sol_fri e keccak dec fuel layout size).
Proof. induction layout as [|m layout IH]; intros size; cbn [sol_fri]; gr. apply IH. Qed.
Lemma grows_path c idx : grows (sol_path keccak sort_idx c idx).
Proof. unfold sol_path. gr. Qed.
Lemma grows_layers layers : forall idx prev, grows (sol_layers e keccak dec sort_idx search layers idx prev).
Proof. induction layers as [|[c n] layers IH]; intros idx prev; cbn [sol_layers]; gr; try apply grows_path. apply IH. Qed.
Lemma grows_serialize c claims s0 : grows (serialize_channel o e keccak enc dec sort_idx search fuel c claims s0).
Proof. unfold serialize_channel. cbv zeta. gr; try apply grows_path; try apply grows_layers. apply grows_fri. Qed.
End Grow.

(** ** The text determines the parts *)
Definition sixteen : list Z := map Z.of_nat (seq 0 16).
Lemma in_sixteen d : digit 16 d -> In d sixteen.
Proof. unfold digit. intros H. apply in_map_iff. exists (Z.to_nat d). split; [lia|apply in_seq; lia]. Qed.
Lemma hex_plain d : digit 16 d -> (32 <= hex_of d)%Z /\ hex_of d <> 34%Z /\ hex_of d <> 92%Z.
Proof.
  intros H. assert (A : forallb (fun d => (32 <=? hex_of d) && negb (hex_of d =? 34) && negb (hex_of d =? 92))%Z sixteen = true) by (vm_compute; reflexivity).
  rewrite forallb_forall in A. specialize (A d (in_sixteen d H)). apply andb_prop in A as [A A3]. apply andb_prop in A as [A1 A2]. apply Z.leb_le in A1. apply negb_true_iff, Z.eqb_neq in A2. apply negb_true_iff, Z.eqb_neq in A3. auto.
Qed.
Lemma hex_inj d d' : digit 16 d -> digit 16 d' -> hex_of d = hex_of d' -> d = d'.
Proof.
  intros H H' E. assert (A : forallb (fun d => forallb (fun d' => negb (hex_of d =? hex_of d') || (d =? d'))%Z sixteen) sixteen = true) by (vm_compute; reflexivity).
  rewrite forallb_forall in A. specialize (A d (in_sixteen d H)). rewrite forallb_forall in A. specialize (A d' (in_sixteen d' H')). rewrite E, Z.eqb_refl in A. cbn in A. apply Z.eqb_eq, A.
Qed.
Lemma nibbles b : digit 256 b -> digit 16 (b / 16) /\ digit 16 (b mod 16).
Proof. unfold digit. intros H. split; [split; [apply Z.div_pos; lia|apply Z.div_lt_upper_bound; lia]|apply Z.mod_pos_bound; lia]. Qed.
(** A text is followed by a comma, a line end or a blank. *)
Definition follows (s : list Z) : Prop := match s with a :: _ => a = 44%Z \/ a = 10%Z \/ a = 32%Z | [] => False end.
Lemma fol_nl s : follows (nl ++ s).
Proof. cbn. auto. Qed.
Lemma fol_comma s : follows (codes "," ++ s).
Proof. left. reflexivity. Qed.
Lemma fol_comma2 s : follows (codes ", " ++ s).
Proof. left. reflexivity. Qed.
Lemma fol_blank s : follows (codes " " ++ s).
Proof. right. right. reflexivity. Qed.
Ltac fol := first [apply fol_nl|apply fol_comma|apply fol_comma2|apply fol_blank].
Definition coded {A} (P : A -> Prop) (f : A -> list Z) : Prop := forall x y s s', f x ++ s = f y ++ s' -> P x -> P y -> follows s -> follows s' -> x = y /\ s = s'.
Lemma hexes_coded : forall x y s s', Forall (digit 256) x -> Forall (digit 256) y -> flat_map (fun b => [hex_of (b / 16); hex_of (b mod 16)]) x ++ 34%Z :: s = flat_map (fun b => [hex_of (b / 16); hex_of (b mod 16)]) y ++ 34%Z :: s' -> x = y /\ s = s'.
Proof.
  induction x as [|a x IH]; intros [|b y] s s' D D' E.
  - injection E as <-. auto.
  - exfalso. inversion D'; subst. destruct (nibbles b H1) as [N _]. cbn [flat_map app] in E. injection E as E _. destruct (hex_plain _ N) as (_ & X & _). congruence.
  - exfalso. inversion D; subst. destruct (nibbles a H1) as [N _]. cbn [flat_map app] in E. injection E as E _. destruct (hex_plain _ N) as (_ & X & _). congruence.
  - inversion D; inversion D'; subst. destruct (nibbles a H1) as [N1 N2]. destruct (nibbles b H5) as [N3 N4]. cbn [flat_map app] in E. injection E as E1 E2 E. apply hex_inj in E1; [|assumption|assumption]. apply hex_inj in E2; [|assumption|assumption].
    destruct (IH y s s' H2 H6 E) as [-> ->]. split; [|reflexivity]. f_equal. rewrite (Z.div_mod a 16), (Z.div_mod b 16) by lia. congruence.
Qed.
Lemma show_coded : coded (Forall (digit 256)) show.
Proof. intros x y s s' E D D' _ _. unfold show in E. rewrite <- !app_assoc in E. apply app_inv_head in E. apply (hexes_coded x y s s' D D' E). Qed.
Lemma join_cons sep x y l : join sep (x :: y :: l) = x ++ sep ++ join sep (y :: l).
Proof. reflexivity. Qed.
Lemma list_coded {A} (P : A -> Prop) f : coded P f -> coded (Forall P) (show_list f).
Proof.
  intros Hc. assert (J : forall l l' x y s s', Forall P (x :: l) -> Forall P (y :: l') ->
    join (codes "," ++ nl) (map f (x :: l)) ++ nl ++ codes "]" ++ s = join (codes "," ++ nl) (map f (y :: l')) ++ nl ++ codes "]" ++ s' -> x :: l = y :: l' /\ s = s').
  { induction l as [|x2 l IH]; intros [|y2 l'] x y s s' D D' E; inversion D; inversion D'; subst; cbn [map] in E; rewrite ?join_cons in E; try rewrite <- !app_assoc in E.
    - destruct (Hc x y _ _ E H1 H5) as [-> E']; [fol|fol|]. apply app_inv_head in E'. apply app_inv_head in E'. auto.
    - destruct (Hc x y _ _ E H1 H5) as [-> E']; [fol|fol|]. discriminate E'.
    - destruct (Hc x y _ _ E H1 H5) as [-> E']; [fol|fol|]. discriminate E'.
    - destruct (Hc x y _ _ E H1 H5) as [-> E']; [fol|fol|]. apply app_inv_head in E'. apply app_inv_head in E'. destruct (IH l' x2 y2 s s' H2 H6 E') as [-> ->]. auto. }
  intros l l' s s' E D D' Fs Fs'. destruct l as [|x l], l' as [|y l']; unfold show_list in E.
  - auto.
  - exfalso. cbn [app] in E. subst s. cbn in Fs. destruct Fs as [Fs|[Fs|Fs]]; discriminate Fs.
  - exfalso. cbn [app] in E. subst s'. cbn in Fs'. destruct Fs' as [Fs'|[Fs'|Fs']]; discriminate Fs'.
  - rewrite <- !app_assoc in E. apply app_inv_head in E. apply app_inv_head in E. destruct (J l l' x y s s' D D' E) as [-> ->]. auto.
Qed.
Definition digital (ps : pieces) : Prop :=
  Forall (digit 256) (trace_root ps) /\ Forall (digit 256) (constraint_root ps) /\ Forall (Forall (digit 256)) (trace_at_point ps) /\ Forall (Forall (digit 256)) (constraints_at_point ps) /\ Forall (Forall (digit 256)) (layer_roots ps) /\
  Forall (Forall (digit 256)) (last_coefficients ps) /\ Forall (digit 256) (work ps) /\ Forall (Forall (digit 256)) (trace_leaves ps) /\ Forall (Forall (digit 256)) (trace_path ps) /\ Forall (Forall (digit 256)) (constraint_leaves ps) /\
  Forall (Forall (digit 256)) (constraint_path ps) /\ Forall (Forall (Forall (digit 256))) (map fst (layers ps)) /\ Forall (Forall (Forall (digit 256))) (map snd (layers ps)).
Lemma digits_concat l : Forall (digit 256) (concat l) -> Forall (Forall (digit 256)) l.
Proof. intros D. apply (digits_words l []). rewrite app_nil_r. exact D. Qed.
Lemma digital_bytes ps : Forall (digit 256) (bytes_of ps) -> digital ps.
Proof.
  unfold bytes_of, digital. intros D. repeat (apply Forall_app in D as [? D]). repeat (split; [first [assumption|apply digits_concat; assumption]|]).
  revert D. generalize (layers ps). clear. induction l as [|[a b] l IH]; intros D; [split; constructor|]. cbn [map concat fst snd] in *. apply Forall_app in D as [D D3]. apply Forall_app in D as [D1 D2]. destruct (IH D3). split; constructor; try assumption; apply digits_concat; assumption.
Qed.
Lemma named_coded {A} (P : A -> Prop) f key x y s s' : coded P f -> named key (f x) ++ s = named key (f y) ++ s' -> P x -> P y -> follows s -> follows s' -> x = y /\ s = s'.
Proof. intros Hc E Px Py Fs Fs'. unfold named in E. rewrite <- !app_assoc in E. do 3 apply app_inv_head in E. apply (Hc x y s s' E Px Py Fs Fs'). Qed.
Lemma text_inj ps ps' : digital ps -> digital ps' -> text_of ps = text_of ps' -> ps = ps'.
Proof.
  intros (D1 & D2 & D3 & D4 & D5 & D6 & D7 & D8 & D9 & D10 & D11 & D12 & D13) (D1' & D2' & D3' & D4' & D5' & D6' & D7' & D8' & D9' & D10' & D11' & D12' & D13') E. unfold text_of in E. pose proof (list_coded _ _ show_coded) as LC. pose proof (list_coded _ _ LC) as LLC.
  destruct (named_coded _ _ _ _ _ _ _ show_coded E D1 D1') as [R1 E1]; [fol|fol|]. clear E. do 2 apply app_inv_head in E1.
  destruct (named_coded _ _ _ _ _ _ _ show_coded E1 D2 D2') as [R2 E2]; [fol|fol|]. clear E1. do 2 apply app_inv_head in E2.
  destruct (named_coded _ _ _ _ _ _ _ LC E2 D3 D3') as [R3 E3]; [fol|fol|]. clear E2. do 2 apply app_inv_head in E3.
  destruct (named_coded _ _ _ _ _ _ _ LC E3 D4 D4') as [R4 E4]; [fol|fol|]. clear E3. do 2 apply app_inv_head in E4.
  destruct (named_coded _ _ _ _ _ _ _ LC E4 D5 D5') as [R5 E5]; [fol|fol|]. clear E4. do 2 apply app_inv_head in E5.
  destruct (named_coded _ _ _ _ _ _ _ LC E5 D6 D6') as [R6 E6]; [fol|fol|]. clear E5. do 2 apply app_inv_head in E6.
  destruct (named_coded _ _ _ _ _ _ _ show_coded E6 D7 D7') as [R7 E7]; [fol|fol|]. clear E6. apply app_inv_head in E7.
  destruct (named_coded _ _ _ _ _ _ _ LC E7 D8 D8') as [R8 E8]; [fol|fol|]. clear E7. do 2 apply app_inv_head in E8.
  destruct (named_coded _ _ _ _ _ _ _ LC E8 D9 D9') as [R9 E9]; [fol|fol|]. clear E8. do 2 apply app_inv_head in E9.
  destruct (named_coded _ _ _ _ _ _ _ LC E9 D10 D10') as [R10 E10]; [fol|fol|]. clear E9. do 2 apply app_inv_head in E10.
  destruct (named_coded _ _ _ _ _ _ _ LC E10 D11 D11') as [R11 E11]; [fol|fol|]. clear E10. do 2 apply app_inv_head in E11.
  destruct (named_coded _ _ _ _ _ _ _ LLC E11 D12 D12') as [R12 E12]; [fol|fol|]. clear E11. do 2 apply app_inv_head in E12.
  destruct (named_coded _ _ _ _ _ _ _ LLC E12 D13 D13') as [R13 _]; [fol|fol|].
  assert (R : layers ps = layers ps').
  { clear - R12 R13. revert R12 R13. generalize (layers ps) (layers ps'). induction l as [|[a b] l IH]; intros [|[a' b'] l'] H1 H2; try discriminate H1; [reflexivity|]. cbn [map fst snd] in *. injection H1 as <- H1. injection H2 as <- H2. f_equal. apply IH; assumption. }
  clear - R1 R2 R3 R4 R5 R6 R7 R8 R9 R10 R11 R. destruct ps, ps'. simpl in *. congruence.
Qed.

(** ** The text is JSON *)
Definition value_text (t : list Z) : Prop := forall st rest open, st = Value \/ st = ValueOrEnd -> read_all (t ++ rest) (st, open) = read_all rest (Next, open).
Lemma read_cons a t st : read_all (a :: t) st = match read a st with Some st => read_all t st | None => None end.
Proof. reflexivity. Qed.
Lemma in_string k open rest : forall t, Forall (fun a => (32 <= a)%Z /\ a <> 34%Z /\ a <> 92%Z) t -> read_all (t ++ 34%Z :: rest) (InString k, open) = read_all rest ((if k then Colon else Next), open).
Proof.
  induction 1 as [|a t (H1 & H2 & H3) _ IH]; [reflexivity|]. cbn [app]. rewrite read_cons. assert (R : read a (InString k, open) = Some (InString k, open)).
  { unfold read. change (is a """") with (a =? 34)%Z. change (is a "\") with (a =? 92)%Z. destruct (Z.eqb_spec a 34); [contradiction|]. destruct (Z.ltb_spec a 32); [lia|]. destruct (Z.eqb_spec a 92); [contradiction|]. reflexivity. }
  rewrite R. exact IH.
Qed.
Lemma show_value x : Forall (digit 256) x -> value_text (show x).
Proof.
  intros D. assert (P : Forall (fun a => (32 <= a)%Z /\ a <> 34%Z /\ a <> 92%Z) ([48; 120]%Z ++ flat_map (fun b => [hex_of (b / 16); hex_of (b mod 16)]) x)).
  { apply Forall_app. split; [repeat constructor; lia|]. induction D as [|b x Hb _ IH]; [constructor|]. cbn [flat_map app]. destruct (nibbles b Hb). constructor; [apply hex_plain; assumption|]. constructor; [apply hex_plain; assumption|]. exact IH. }
  intros st rest open Hst. unfold show. change (codes """0x") with (34%Z :: [48; 120]%Z). change (codes """") with [34%Z]. rewrite <- !app_assoc. cbn [app]. rewrite read_cons.
  replace (read 34 (st, open)) with (Some (InString false, open)) by (destruct Hst as [-> | ->]; reflexivity). exact (in_string false open rest _ P).
Qed.
Lemma list_value {A} (P : A -> Prop) f l : (forall x, P x -> value_text (f x)) -> Forall P l -> l <> [] -> value_text (show_list f l).
Proof.
  intros Hf D N st rest open Hst. destruct l as [|x l]; [contradiction|]. clear N. unfold show_list. rewrite <- !app_assoc.
  assert (Q : read_all (codes "[" ++ nl ++ join (codes "," ++ nl) (map f (x :: l)) ++ nl ++ codes "]" ++ rest) (st, open) = read_all (join (codes "," ++ nl) (map f (x :: l)) ++ nl ++ codes "]" ++ rest) (ValueOrEnd, Array :: open)) by (destruct Hst as [-> | ->]; reflexivity).
  rewrite Q. clear Q Hst st. assert (J : forall l x st, st = Value \/ st = ValueOrEnd -> Forall P (x :: l) -> read_all (join (codes "," ++ nl) (map f (x :: l)) ++ nl ++ codes "]" ++ rest) (st, Array :: open) = read_all rest (Next, open)).
  { clear - Hf. induction l as [|y l IH]; intros x st Hst D; inversion D; subst; cbn [map]; rewrite ?join_cons.
    - cbn [join]. rewrite (Hf x H1) by assumption. reflexivity.
    - rewrite <- !app_assoc. rewrite (Hf x H1) by assumption. transitivity (read_all (join (codes "," ++ nl) (map f (y :: l)) ++ nl ++ codes "]" ++ rest) (Value, Array :: open)); [reflexivity|]. apply IH; auto. }
  apply J; auto.
Qed.
(** An entry of an object *)
Lemma named_read key t st open rest : st = Key \/ st = KeyOrEnd -> Forall (fun a => (32 <= a)%Z /\ a <> 34%Z /\ a <> 92%Z) (codes key) -> value_text t -> read_all (named key t ++ rest) (st, open) = read_all rest (Next, open).
Proof.
  intros Hst K V. unfold named. rewrite <- !app_assoc. change (codes """") with [34%Z]. cbn [app]. rewrite read_cons. replace (read 34 (st, open)) with (Some (InString true, open)) by (destruct Hst as [-> | ->]; reflexivity).
  change (codes """: ") with [34; 58; 32]%Z. cbn [app]. rewrite (in_string true open _ _ K). cbn [app]. rewrite !read_cons. change (read 58 _) with (Some (Value, open)). cbv iota. change (read 32 _) with (Some (Value, open)). cbv iota. apply V. auto.
Qed.
Lemma comma1 rest open : read_all (codes "," ++ rest) (Next, Object :: open) = read_all rest (Key, Object :: open).
Proof. reflexivity. Qed.
Lemma comma2 rest open : read_all (codes ", " ++ nl ++ rest) (Next, Object :: open) = read_all rest (Key, Object :: open).
Proof. reflexivity. Qed.
Lemma text_json ps : digital ps -> filled ps -> json (codes "{" ++ text_of ps ++ codes "}").
Proof.
  intros (D1 & D2 & D3 & D4 & D5 & D6 & D7 & D8 & D9 & D10 & D11 & D12 & D13) (F3 & F4 & F5 & F6 & F8 & F9 & F10 & F11 & F12 & F). pose proof (fun l => list_value _ show l show_value) as LV.
  assert (L1 : value_text (show_list (show_list show) (map fst (layers ps)))).
  { apply (list_value (fun l => Forall (Forall (digit 256)) l /\ l <> [])); [intros x [A B]; apply LV; assumption| |intros Z; apply map_eq_nil in Z; contradiction]. apply Forall_forall. intros y Hy. rewrite Forall_forall in D12. split; [apply D12, Hy|]. apply in_map_iff in Hy as (z & <- & Hz). rewrite Forall_forall in F. apply F, Hz. }
  assert (L2 : value_text (show_list (show_list show) (map snd (layers ps)))).
  { apply (list_value (fun l => Forall (Forall (digit 256)) l /\ l <> [])); [intros x [A B]; apply LV; assumption| |intros Z; apply map_eq_nil in Z; contradiction]. apply Forall_forall. intros y Hy. rewrite Forall_forall in D13. split; [apply D13, Hy|]. apply in_map_iff in Hy as (z & <- & Hz). rewrite Forall_forall in F. apply F, Hz. }
  unfold json, text_of. change (codes "{") with [123%Z]. cbn [app]. rewrite read_cons. change (read 123 _) with (Some (KeyOrEnd, [Object])). cbv iota. rewrite <- !app_assoc.
  assert (K : forall key, forallb (fun a => (32 <=? a) && negb (a =? 34) && negb (a =? 92))%Z (codes key) = true -> Forall (fun a => (32 <= a)%Z /\ a <> 34%Z /\ a <> 92%Z) (codes key)).
  { intros key A. rewrite forallb_forall in A. apply Forall_forall. intros a Ha. specialize (A a Ha). apply andb_prop in A as [A A3]. apply andb_prop in A as [A1 A2]. apply Z.leb_le in A1. apply negb_true_iff, Z.eqb_neq in A2. apply negb_true_iff, Z.eqb_neq in A3. auto. }
  repeat (rewrite named_read; [|auto|apply K; vm_compute; reflexivity|first [assumption|apply show_value; assumption|apply LV; assumption]]; first [rewrite comma2|rewrite comma1|idtac]).
  reflexivity.
Qed.
