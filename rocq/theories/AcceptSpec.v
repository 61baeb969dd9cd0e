(** What it means that the verifier has accepted a proof: what the proof holds, which challenges it was checked
    with, and which equations hold. Stated without the functions of the verifier. *)
Require Import ZArith List Sorted Permutation.
From Verif Require Import Primes U256Model U256Spec EncodingSpec BinaryModel HashModel FieldSig FftSpec StarkBase PolyModel ExprModel ExprSpec ChannelProps QueryProps StarkModel.
Import ListNotations.
Open Scope nat_scope.

(** ** Merkle paths *)
(** The hash reached from the hash [h] at position [i] of a layer by hashing with the siblings [path], upwards. *)
Fixpoint climb {H} (node : H -> H -> H) (i : Z) (h : H) (path : list H) : H :=
  match path with
  | [] => h
  | s :: path => climb node (i / 2) (if Z.even i then node h s else node s h) path
  end.
(** The pairs that are hashed on the way. *)
Fixpoint climbed {H} (node : H -> H -> H) (i : Z) (h : H) (path : list H) : list (H * H) :=
  match path with
  | [] => []
  | s :: path => (if Z.even i then (h, s) else (s, h)) :: climbed node (i / 2) (if Z.even i then node h s else node s h) path
  end.

(** ** The claim polynomials *)
(** [ExprSpec.value], with the claim polynomial number [i] for [EClaim i] *)
Inductive claim_value {F} (o : ops F) (claims : list (list F)) (x : F) (T : nat -> Z -> option F) : rexpr F -> F -> Prop :=
  | cv_x : claim_value o claims x T EX x
  | cv_const c : claim_value o claims x T (EConst c) c
  | cv_trace i j v : T i j = Some v -> claim_value o claims x T (ETrace i j) v
  | cv_poly p a u : claim_value o claims x T a u -> claim_value o claims x T (EPoly p a) (peval o p u)
  | cv_claim i n p a u : nth_error claims i = Some p -> claim_value o claims x T a u -> claim_value o claims x T (EClaim i n a) (peval o p u)
  | cv_add a b u v : claim_value o claims x T a u -> claim_value o claims x T b v -> claim_value o claims x T (EAdd a b) (fadd o u v)
  | cv_neg a u : claim_value o claims x T a u -> claim_value o claims x T (ENeg a) (fneg o u)
  | cv_mul a b u v : claim_value o claims x T a u -> claim_value o claims x T b v -> claim_value o claims x T (EMul a b) (fmul o u v)
  | cv_inv a u : claim_value o claims x T a u -> u <> f0 o -> claim_value o claims x T (EInv a) (finv o u)
  | cv_exp a n u : claim_value o claims x T a u -> claim_value o claims x T (EExp a n) (fexp o u (Z.to_N n)).

Section Accept.
Context {F : Type} (o : ops F) (gen : F) (w : nat -> F) (keccak : list Z -> list Z) (enc : F -> u256) (dec : u256 -> option F).

(** The leaf [l] is at position [i] below [root], which is [D] levels up. *)
Definition authentic (root : hash) (D : nat) (i : Z) (l : list F) : Prop :=
  exists path, length path = D /\ climb (node_of keccak) i (leaf_of keccak enc l) path = root.

(** ** Challenges *)
(** The digest of the coin after the seed and the messages [msgs]. *)
Definition absorb (seed : list Z) (msgs : list (list Z)) : list Z := fold_left (fun d m => keccak (d ++ m)) msgs (keccak seed).
(** The field elements drawn in succession from a coin with digest [d] and counter [k]: the candidates (C40) that
    are below the modulus. *)
Inductive drawn (d : list Z) : Z -> list F -> Prop :=
| drawn_all k : drawn d k []
| drawn_skip k xs : (p_field <= candidate keccak d k)%Z -> drawn d (k + 1)%Z xs -> drawn d k xs
| drawn_next k u x xs : (candidate keccak d k < p_field)%Z -> denotes u (candidate keccak d k) -> dec u = Some x -> drawn d (k + 1)%Z xs -> drawn d k (x :: xs).
(** The bytes [b] are read as the field element [x]. *)
Definition holds (b : list Z) (x : F) : Prop := length b = 32 /\ dec (from_bytes_be b) = Some x.

(** ** FRI *)
(** The point number [i] of the domain of size 2^K, in the order of the layers. *)
Definition point (K : nat) (i : Z) : F := fpw o (w K) (rev_bits K (Z.to_nat i)).
(** [y] is the fold with the challenge [c] of the coset number [i] of size 2^m of a layer of size 2^K: 2^m times the
    value at [c] of the polynomial with 2^m coefficients through the values of the coset. *)
Definition folded (K m : nat) (c : F) (i : Z) (coset : list F) (y : F) : Prop :=
  exists P, length P = 2 ^ m /\ (forall j, j < 2 ^ m -> peval o P (point K (i * 2 ^ Z.of_nat m + Z.of_nat j)) = nth j coset (f0 o)) /\
    y = fmul o (fpw o (fadd o (f1 o) (f1 o)) m) (peval o P c).
(** The layers are given by their roots, challenges and numbers of folds. [v i] is the value of the current layer at
    position [i], for the queried positions [J]: it is found in a coset that is below the root, and the fold of the
    coset is the value of the next layer. After the last layer the values are those of the polynomial [last]. *)
Fixpoint fri_consistent (layers : list (hash * F * nat)) (K : nat) (v : Z -> F) (J : Z -> Prop) (last : list F) : Prop :=
  match layers with
  | [] => forall i, J i -> v i = peval o last (point K i)
  | (root, c, m) :: layers =>
      exists (coset : Z -> list F) (v' : Z -> F),
        (forall q, J q -> let i := (q / 2 ^ Z.of_nat m)%Z in
           length (coset i) = 2 ^ m /\ nth_error (coset i) (Z.to_nat (q mod 2 ^ Z.of_nat m)) = Some (v q) /\
           authentic root (K - m) i (coset i) /\ folded K m c i (coset i) (v' i)) /\
        fri_consistent layers (K - m) v' (fun i => exists q, J q /\ i = (q / 2 ^ Z.of_nat m)%Z) last
  end.

(** ** Out of domain sampling *)
(** The random combination of the quotients by the distances to the sampled points (C54), at the point [x] where the
    trace polynomials have the values [row] and the constraint polynomials the values [quot]. The trace arguments
    [args] are (column, offset) pairs; [tv] and [cv] are the claimed values and 2^k is the length of the trace. *)
Definition sampled (k : nat) (z : F) (a : nat * Z) : F := fmul o (fpw o (w k) (Z.to_nat (snd a mod 2 ^ Z.of_nat k))) z.
Definition quotient (k : nat) (z : F) (args : list (nat * Z)) (tv cv coefs : list F) (x : F) (row quot : list F) : F :=
  fadd o
    (fsum o (map (fun n => let a := nth n args (0, 0%Z) in
       fmul o (nth n coefs (f0 o)) (fmul o (fsub o (nth (fst a) row (f0 o)) (nth n tv (f0 o))) (finv o (fsub o x (sampled k z a))))) (seq 0 (length args))))
    (fsum o (map (fun n =>
       fmul o (nth (length args + n) coefs (f0 o)) (fmul o (fsub o (nth n quot (f0 o)) (nth n cv (f0 o))) (finv o (fsub o x (fpw o z (length cv)))))) (seq 0 (length cv)))).

(** ** The proof *)
(** What is in a proof, and what the verifier draws. *)
Record evidence : Type := {
  trace_root : hash; constraint_root : hash; trace_values_b : list (list Z); constraint_values_b : list (list Z);
  fri_roots : list hash; last_b : list (list Z); nonce : list Z; openings : list Z;
  alphas : list F; z : F; trace_values : list F; constraint_values : list F; coefs : list F; fri_points : list F; last : list F;
  queries : list Z; rows : Z -> list F; quots : Z -> list F }.
Section Messages.
Context (ev : evidence).
Definition after_trace : list (list Z) := [trace_root ev].
Definition after_constraints : list (list Z) := after_trace ++ [constraint_root ev].
Definition after_values : list (list Z) := after_constraints ++ trace_values_b ev ++ constraint_values_b ev.
Definition after_layers (i : nat) : list (list Z) := after_values ++ firstn i (fri_roots ev).
Definition after_last : list (list Z) := after_layers (length (fri_roots ev)) ++ [concat (last_b ev)].
Definition after_nonce : list (list Z) := after_last ++ [nonce ev].
End Messages.

(** The proof is accepted for the constraint system [c] over traces of length 2^k, with the blowup 2^b. *)
Record accepted (k b : nat) (c : constraints (F := F)) (claims : list (list F)) (seed proof : list Z) (args : list (nat * Z)) (ks : list Z) (ev : evidence) : Prop := {
  (* the layout of the proof *)
  a_bytes : proof = concat (after_nonce ev) ++ openings ev;
  a_roots : length (trace_root ev) = 32 /\ length (constraint_root ev) = 32 /\ length (nonce ev) = 8 /\ Forall (fun h => length h = 32) (fri_roots ev);
  a_values : Forall2 holds (trace_values_b ev) (trace_values ev) /\ Forall2 holds (constraint_values_b ev) (constraint_values ev) /\ Forall2 holds (last_b ev) (last ev);
  a_layers : length (fri_roots ev) = length (c_fri c) /\ length (fri_points ev) = length (c_fri c);
  (* the trace arguments are the cells the constraints refer to; there is a claimed value for each *)
  a_args : StronglySorted (fun a b => fst a < fst b \/ fst a = fst b /\ (snd a < snd b)%Z) args /\
    (forall i j, In (i, j) args <-> exists ex, In ex (c_exprs c) /\ refers ex i j) /\ length (trace_values ev) = length args;
  (* the number of constraint polynomials is the least power of two from the degree of the constraints on *)
  a_degree : exists D a, c_degree o true c = Some D /\ length (constraint_values ev) = 2 ^ a /\ (D <= 2 ^ Z.of_nat a)%Z /\ (forall a', (D <= 2 ^ Z.of_nat a')%Z -> a <= a') /\
  (* and the adjustment degrees raise the degree bound of each constraint to that of the combination *)
    Forall2 (fun ex d => exists num den, degree o true (2 ^ Z.of_nat k - 1) ex = Some (num, den) /\ (0 <= d)%Z /\ (d + num = (D * 2 ^ Z.of_nat k - 1) + den)%Z) (c_exprs c) ks;
  (* the degree bound of the last layer *)
  a_last : length (last ev) = 2 ^ (k - list_sum (c_fri c));
  (* each challenge is drawn after what it has to be independent of was said *)
  a_alphas : length (alphas ev) = 2 * length (c_exprs c) /\ drawn (absorb seed (after_trace ev)) 0 (alphas ev);
  a_z : drawn (absorb seed (after_constraints ev)) 0 [z ev];
  a_coefs : length (coefs ev) = length args + length (constraint_values ev) /\ drawn (absorb seed (after_values ev)) 0 (coefs ev);
  a_points : forall i, i < length (c_fri c) -> drawn (absorb seed (after_layers ev (S i))) 0 [nth i (fri_points ev) (f0 o)];
  (* proof of work on everything said so far *)
  a_work : (0 <= c_pow_bits c < 256)%Z /\
    (num 256 (keccak (keccak ([0x01; 0x23; 0x45; 0x67; 0x89; 0xab; 0xcd; 0xed]%Z ++ absorb seed (after_last ev) ++ [c_pow_bits c]) ++ nonce ev)) < 2 ^ (256 - c_pow_bits c))%Z;
  (* the queries are those of the coin *)
  a_queries : StronglySorted Z.le (queries ev) /\
    Permutation (queries ev) (map (query_index keccak (absorb seed (after_nonce ev)) 0 (Z.of_nat (k + b))) (seq 0 (Z.to_nat (c_queries c))));
  (* the combined constraint, at the sample point, from the claimed values of the trace, is the claimed value *)
  a_oods : exists T vs, (forall n i j, nth_error args n = Some (i, j) -> T i j = nth_error (trace_values ev) n) /\
    Forall2 (claim_value o claims (z ev) T) (c_exprs c) vs /\
    fsum o (map (fun i => fmul o (fadd o (nth (2 * i) (alphas ev) (f0 o)) (fmul o (nth (2 * i + 1) (alphas ev) (f0 o)) (fexp o (z ev) (Z.to_N (nth i ks 0%Z))))) (nth i vs (f0 o))) (seq 0 (length (c_exprs c)))) =
    peval o (constraint_values ev) (z ev);
  (* at the queries, the values of the trace and of the constraint polynomials are below the roots *)
  a_rows : forall q, In q (queries ev) -> length (rows ev q) = c_ncolumns c /\ authentic (trace_root ev) (k + b) q (rows ev q);
  a_quots : forall q, In q (queries ev) -> length (quots ev q) = length (constraint_values ev) /\ authentic (constraint_root ev) (k + b) q (quots ev q);
  (* the queries avoid the sampled points *)
  a_poles : forall q, In q (queries ev) -> let x := fmul o gen (point (k + b) q) in x <> fpw o (z ev) (length (constraint_values ev)) /\ forall a, In a args -> x <> sampled k (z ev) a;
  (* and FRI holds for the quotient *)
  a_fri : fri_consistent (List.combine (List.combine (fri_roots ev) (fri_points ev)) (c_fri c)) (k + b)
    (fun q => quotient k (z ev) args (trace_values ev) (constraint_values ev) (coefs ev) (fmul o gen (point (k + b) q)) (rows ev q) (quots ev q))
    (fun q => In q (queries ev)) (last ev)
}.
End Accept.
