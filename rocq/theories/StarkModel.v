(** crypto/stark/src/prover.rs [prove] and verifier.rs [verify]: the whole protocol, put together from the
    models of its parts.

    [None] is a panic. Field elements travel as the limbs of their Montgomery representation: [enc] and [dec] are
    that representation and its inverse, constrained in the theorems. In a release build the channel does not
    check that limbs read from a proof are below the modulus (C39); such elements have no counterpart here, [dec]
    fails on them. Keccak, the sorting and searching functions of the standard library, the proof of work solver
    and the order in which the parallel loops of the Merkle trees run are parameters. Logging is not modelled. *)
Require Import ZArith Lia Bool List.
From Verif Require Import Word U256Model BinaryModel KnuthModel FieldSig FieldAlgModel Arr FftModel StarkBase PolyModel TraceModel ExprModel
  HashModel MerkleModel ChannelModel PowModel QueryModel FriModel OodsModel DagModel.
Import ListNotations.
Open Scope nat_scope.

(** ** Results with a channel as state *)
(** Result<_, E> *)
Inductive result (E A : Type) := Good (a : A) | Bad (err : E).
Arguments Good {E A}. Arguments Bad {E A}.
Section Act.
Context {S E : Type}.
Definition act (A : Type) : Type := S -> option (result E (A * S)).
Definition ret {A} (a : A) : act A := fun s => Some (Good (a, s)).
Definition fail {A} (err : E) : act A := fun _ => Some (Bad err).
Definition act_bind {A C} (m : act A) (k : A -> act C) : act C :=
  fun s => match m s with None => None | Some (Bad err) => Some (Bad err) | Some (Good (a, s)) => k a s end.
(** A computation that may panic *)
Definition lift {A} (x : option A) : act A := fun s => match x with Some a => Some (Good (a, s)) | None => None end.
(** A use of the channel that may panic *)
Definition chan {A} (f : S -> option (A * S)) : act A := fun s => match f s with Some (a, s) => Some (Good (a, s)) | None => None end.
(** [for] over a list, collecting *)
Fixpoint act_map {A C} (f : A -> act C) (l : list A) : act (list C) :=
  match l with [] => ret [] | x :: l => act_bind (f x) (fun y => act_bind (act_map f l) (fun ys => ret (y :: ys))) end.
(** [for] over a list *)
Fixpoint act_iter {A} (f : A -> act unit) (l : list A) : act unit :=
  match l with [] => ret tt | x :: l => act_bind (f x) (fun _ => act_iter f l) end.
(** The [?] operator on a Merkle result *)
Definition merkle {A} (wrap : merror -> E) (r : res A) : act A := match r with Ok a => ret a | Err err => fail (wrap err) end.
End Act.
Arguments act : clear implicits.
Notation "'do' x <- m ; k" := (act_bind m (fun x => k)) (at level 200, x pattern, right associativity).

(** verifier.rs:22-34 [Error] *)
Inductive verror := RootUnavailable | InvalidPoW | InvalidLDECommitment | InvalidConstraintCommitment | InvalidFriCommitment | HashMapFailure
  | ProofTooLong | OodsCalculationFailure | OodsMismatch | FriCalculationFailure | MerkleError (err : merror).
(** prover.rs:24-29 [Error] *)
Inductive perror := PRootUnavailable | MerkleFailed (err : merror) | VerificationFailed (err : verror).

Section Stark.
Context {F : Type} (o : ops F) (e : engine F) (keccak : list Z -> list Z).
Context (enc : F -> u256) (dec : u256 -> option F).
(** slice::sort_unstable, sort_unstable_by_key, binary_search (the position is the [Ok] case) *)
Context (sort_idx : list Z -> list Z) (sort_nodes : list (Z * hash) -> list (Z * hash)) (search : list Z -> Z -> option nat).
(** Bound on the rejection sampling of field elements *)
Context (fuel : nat).
Local Notation dbg := (edbg e).

(** ** Hashing *)
(** node.rs:7-14 *)
Definition node_of (l r : hash) : hash := mk_hash keccak (l ++ r).
(** hashable.rs:32-65 on Vec<FieldElement>; prover.rs:78-90 and 122-133 [leaf_hash] *)
Definition leaf_of (l : list F) : hash := hash_slice keccak (fun x => hash_u256 (enc x)) l.
(** Hash derives PartialEq *)
Fixpoint hash_eqb (a b : hash) : bool :=
  match a, b with [], [] => true | x :: a, y :: b => (x =? y)%Z && hash_eqb a b | _, _ => false end.
(** Hash::default *)
Definition hash_default : hash := repeat 0%Z 32.

(** ** usize arithmetic *)
(** [>>]: a shift by 64 or more panics, or shifts by the amount modulo 64. *)
Definition ushr (x : Z) (k : nat) : option Z :=
  if (Z.of_nat k <? 64)%Z then Some (Z.shiftr x (Z.of_nat k)) else if dbg then None else Some (Z.shiftr x (Z.of_nat k mod 64)).
(** usize::next_power_of_two: overflow panics, or gives 0. *)
Definition unext (n : Z) : option Z := match next_power_of_two n with Some x => Some x | None => if dbg then None else Some 0%Z end.
(** [step *= 2], [n] times *)
Fixpoint double (n : nat) (x : Z) : option Z := match n with O => Some x | S n => let? x := umul dbg x 2 in double n x end.
(** [/]: division by zero panics *)
Definition udiv (a b : Z) : option Z := if (b =? 0)%Z then None else Some (a / b)%Z.

(** ** Field elements on the channel *)
Definition decode_all (l : list u256) : option (list F) := option_all (map dec l).
(** channel.rs:306-310 [replay] of FieldElement *)
Definition replay_elem (v : verifier) : option (F * verifier) :=
  match replay_felt dbg keccak v with Some (x, v) => let? x := dec x in Some (x, v) | None => None end.
(** channel.rs:99-112 *)
Definition replay_layer (size : nat) (v : verifier) : option (list F * verifier) :=
  match replay_fri_layer dbg keccak v size with Some (l, v) => let? l := decode_all l in Some (l, v) | None => None end.
(** channel.rs:153-165 on either end, channel.rs:92-94, prover.rs:707-709 *)
Definition draw_elem (c : coin) : option (F * coin) :=
  match draw_felt dbg keccak fuel c with Some (x, c) => let? x := dec x in Some (x, c) | None => None end.
Definition draw_elems (n : nat) (c : coin) : option (list F * coin) :=
  match get_coefficients dbg keccak fuel c n with Some (l, c) => let? l := decode_all l in Some (l, c) | None => None end.
(** The coin of a channel *)
Definition v_coin {A} (f : coin -> option (A * coin)) (v : verifier) : option (A * verifier) :=
  match f (vcoin v) with Some (a, c) => Some (a, Verifier c (vproof v) (proof_index v)) | None => None end.
Definition p_coin {A} (f : coin -> option (A * coin)) (p : prover) : option (A * prover) :=
  match f (pcoin p) with Some (a, c) => Some (a, Prover c (pproof p)) | None => None end.
(** prover writes: channel.rs:261-265, 249-259, 269-275, 228-246, 134-138 *)
Definition w_elem (x : F) (p : prover) : option (unit * prover) := let? p := p_felt dbg keccak p (enc x) in Some (tt, p).
Definition w_layer (l : list F) (p : prover) : option (unit * prover) := let? p := p_layer dbg keccak p (map enc l) in Some (tt, p).
Definition w_leaf (l : list F) (p : prover) : option (unit * prover) := Some (tt, p_u256s keccak p (map enc l)).
Definition w_hash (h : hash) (p : prover) : option (unit * prover) := Some (tt, p_hash keccak p h).
Definition w_hashes (l : list hash) (p : prover) : option (unit * prover) := Some (tt, p_hashes keccak p l).
Definition w_nonce (n : Z) (p : prover) : option (unit * prover) := Some (tt, p_nonce keccak p n).

(** ** Verifier *)
Local Notation VM := (act verifier verror).
Local Notation m_verify := (MerkleModel.verify hash_eqb node_of leaf_of sort_nodes).
(** verifier.rs:223-227: one root and one evaluation point for each entry of the layout *)
Fixpoint replay_fri (layout : list nat) (fri_size : Z) : VM (list (commitment (H := hash) * F) * Z) :=
  match layout with
  | [] => ret ([], fri_size)
  | num_folds :: layout =>
      do fri_size <- lift (ushr fri_size num_folds);
      do root <- chan (replay_hash keccak);
      do commitment <- merkle MerkleError (from_size_hash fri_size root);
      do eval_point <- chan (v_coin draw_elem);
      do r <- replay_fri layout fri_size;
      ret ((commitment, eval_point) :: fst r, snd r)
  end.
(** verifier.rs:248-262, 265-281 and 339-343, 352-354: read the hashes of a Merkle proof, check the leaves against the commitment *)
Definition decommit (c : commitment) (indices : list Z) : VM (MerkleModel.proof (H := hash)) :=
  do r <- lift (proof_size sort_idx c indices);
  do proof_length <- merkle MerkleError r;
  do hashes <- chan (replay_many (replay_hash keccak) (Z.to_nat proof_length));
  do r <- lift (from_hashes sort_idx c indices hashes);
  merkle MerkleError r.
Definition check_leaves (p : MerkleModel.proof (H := hash)) (leafs : list (Z * list F)) (err : verror) : VM unit :=
  do r <- lift (m_verify p leafs);
  match r with Ok _ => ret tt | Err _ => fail err end.
(** BTreeMap::get on the folded values; the keys are distinct *)
Definition folds_get (folds : list (Z * F)) (n : Z) : option F := option_map snd (find (fun kv => (fst kv =? n)%Z) folds).
(** verifier.rs:296-380: the loop over the FRI layers. [layers] are the commitment, the evaluation point and the
    layout entry of the layers left, [first] is [k == 0], [known z] is the value at the query number [z] (verifier.rs:
    309-319), [values] the folded values of the layer before. [(commitment, eval_point)] and the layout have the
    same length; the products [i * coset_size + j] are at most the size of the domain. *)
Fixpoint fri_layers (eval_x : list F) (known : nat -> VM F) (layers : list ((commitment (H := hash) * F) * nat)) (first : bool)
    (fri_indices previous_indices : list Z) (fri_folds : list (Z * F)) (step len : Z) : VM (list (Z * F) * list Z * Z) :=
  match layers with
  | [] => ret (fri_folds, previous_indices, len)
  | ((commitment, eval_point), num_folds) :: layers =>
      let fri_indices := dedup_by (fun x => x) fri_indices in
      do coset_size <- lift (ushl1 dbg (Z.of_nat num_folds));
      do fri_layer_values <- act_map (fun i =>
        do coset <- act_map (fun j =>
          let n := (i * coset_size + Z.of_nat j)%Z in
          match search previous_indices n with
          | Some z => if first then known z else match folds_get fri_folds n with Some x => ret x | None => fail HashMapFailure end
          | None => chan replay_elem
          end) (seq 0 (Z.to_nat coset_size));
        ret (i, coset)) fri_indices;
      do layer_folds <- lift (option_all (map (fun ic =>
        let? y := fri_fold o dbg (snd ic) eval_point (Z.to_nat step) (Z.to_nat (coset_size / 2 * fst ic)) (Z.to_nat len) eval_x in Some (fst ic, y)) fri_layer_values));
      do merkle_proof <- decommit commitment fri_indices;
      do step <- lift (double num_folds step);
      do len <- lift (udiv len coset_size);
      do _ <- check_leaves merkle_proof fri_layer_values InvalidFriCommitment;
      do next <- match layers with
                 | [] => ret fri_indices
                 | (_, n) :: _ => do s <- lift (ushl1 dbg (Z.of_nat n)); lift (option_all (map (fun ind => udiv ind s) fri_indices))
                 end;
      fri_layers eval_x known layers false next fri_indices layer_folds step len
  end.
(** verifier.rs:371-383 *)
Definition check_last (len : nat) (interp_root : F) (coefficients : list F) (fri_folds : list (Z * F)) (key : Z) : VM unit :=
  do calculated <- lift (folds_get fri_folds key);
  do same <- lift (last_check o dbg len interp_root coefficients (Z.to_nat key) calculated);
  if same then ret tt else fail OodsCalculationFailure.
(** verifier.rs:178-396 [verify]. The claim polynomials and the seed of the channel are fields of the constraint
    system in the code. *)
Definition verify_channel (c : constraints (F := F)) (claims : list (list F)) : VM unit :=
  let trace_length := c_nrows c in
  let trace_cols := c_ncolumns c in
  do eval_domain_size <- lift (umul dbg (Z.of_nat trace_length) (c_blowup c));
  (* root_series(eval_domain_size).collect() *)
  do r <- lift (eroot e (Z.to_nat eval_domain_size));
  do root <- lift r;
  let eval_x := powers_from o (f1 o) root (Z.to_nat eval_domain_size) in
  do low_degree_extension_root <- chan (replay_hash keccak);
  do lde_commitment <- merkle MerkleError (from_size_hash eval_domain_size low_degree_extension_root);
  do constraint_coefficients <- chan (v_coin (draw_elems (2 * length (c_exprs c))));
  do constraint_evaluated_root <- chan (replay_hash keccak);
  do constraint_commitment <- merkle MerkleError (from_size_hash eval_domain_size constraint_evaluated_root);
  do oods_point <- chan (v_coin draw_elem);
  do parseable_constraints <- lift (substitute o claims c);
  do trace_arguments <- lift (c_trace_arguments parseable_constraints);
  do trace_values <- chan (replay_many replay_elem (length trace_arguments));
  let trace_map := claimed_trace_map trace_arguments trace_values in
  do degree <- lift (c_degree o dbg c);
  do constraints_trace_degree <- lift (unext degree);
  do claimed_constraint_values <- chan (replay_many replay_elem (Z.to_nat constraints_trace_degree));
  do oods_coefficients <- chan (v_coin (draw_elems (length trace_map + length claimed_constraint_values)));
  do fri <- replay_fri (c_fri c) eval_domain_size;
  do last_size <- lift (udiv (snd fri) (c_blowup c));
  do last_layer_coefficients <- chan (replay_layer (Z.to_nat last_size));
  do pow_seed <- chan (v_coin (draw_seed dbg));
  do pow_challenge <- lift (with_difficulty keccak pow_seed (c_pow_bits c));
  do pow_response <- chan (replay_nonce keccak);
  if negb (pow_verify keccak pow_challenge pow_response) then fail InvalidPoW else
  do queries <- chan (v_coin (v_get_indices dbg keccak sort_idx (Z.to_nat (c_queries c)) (v_query_bits eval_domain_size)));
  do lde_values <- act_map (fun index => do l <- chan (replay_layer trace_cols); ret (index, l)) queries;
  do lde_proof <- decommit lde_commitment queries;
  do _ <- check_leaves lde_proof lde_values InvalidLDECommitment;
  do constraint_values <- act_map (fun index => do l <- chan (replay_layer (Z.to_nat constraints_trace_degree)); ret (index, l)) queries;
  do constraint_proof <- decommit constraint_commitment queries;
  do _ <- check_leaves constraint_proof constraint_values InvalidConstraintCommitment;
  do coset_sizes <- lift (option_all (map (fun k => ushl1 dbg (Z.of_nat k)) (c_fri c)));
  do fri_indices <- lift (option_all (map (fun x => let? s := nth_error coset_sizes 0 in udiv x s) queries));
  let known z :=
    do query <- lift (nth_error queries z);
    do z_reverse <- lift (permute_index dbg (Z.to_nat eval_domain_size) (Z.to_nat query));
    do x <- lift (nth_error eval_x z_reverse);
    do t <- lift (nth_error lde_values z);
    do q <- lift (nth_error constraint_values z);
    do r <- lift (out_of_domain_element o e x (snd t) (snd q) oods_point trace_map claimed_constraint_values oods_coefficients trace_length);
    match r with Some y => ret y | None => fail RootUnavailable end in
  do r <- fri_layers eval_x known (List.combine (fst fri) (c_fri c)) true fri_indices queries [] 1 eval_domain_size;
  match r with (fri_folds, previous_indices, len) =>
    do ended <- (fun v => Some (Good (at_end v, v)));
    if negb ended then fail ProofTooLong else
    do r <- lift (eroot e (Z.to_nat len));
    match r with
    | None => fail RootUnavailable
    | Some interp_root =>
        do _ <- act_iter (check_last (Z.to_nat len) interp_root last_layer_coefficients fri_folds) previous_indices;
        do from_trace <- lift (oods_value_from_trace_values o dbg c claims constraint_coefficients trace_map oods_point);
        if feqb o from_trace (oods_value_from_constraint_values o claimed_constraint_values oods_point) then ret tt else fail OodsMismatch
    end
  end.
Definition stark_verify (c : constraints (F := F)) (claims : list (list F)) (seed proof : list Z) : option (result verror unit) :=
  match verify_channel c claims (verifier_new keccak proof seed) with
  | None => None
  | Some (Bad err) => Some (Bad err)
  | Some (Good _) => Some (Good tt)
  end.

(** ** Prover *)
(** The two functions that seed the graph (algebraic_dag.rs), the proof of work solver, and the schedules of the
    parallel loops of a Merkle tree with given leaves *)
Context (kseed : F -> nat -> F) (ktrace : F -> nat -> Z -> F) (solve : challenge_ -> option Z) (orders : list (list F) -> nat -> list nat).
Local Notation PM := (act prover perror).
Local Notation tree := (MerkleModel.tree (H := hash) (Leaf := list F)).
(** prover.rs:63-76 the leaves of [PolyLDE] *)
Definition lde_leaves (ldes : list (list F)) : option (list (list F)) :=
  match ldes with
  | [] => Some []
  | l0 :: _ => option_all (map (fun i => option_all (map (fun l => nth_error l i) ldes)) (seq 0 (length l0)))
  end.
(** prover.rs:106-120 the leaves of [FriLeaves] *)
Definition fri_leaves (coset_size : nat) (layer : list F) : option (list (list F)) :=
  if coset_size =? 0 then None else
  if dbg && negb (length layer mod coset_size =? 0) then None else
  Some (map (fun i => firstn coset_size (skipn (i * coset_size) layer)) (seq 0 (length layer / coset_size))).
(** vector_commitment.rs [commit], tree.rs [from_leaves] *)
Definition commit (leaves : list (list F)) : PM tree :=
  do r <- lift (from_leaves node_of leaf_of hash_default (orders leaves) leaves);
  merkle MerkleFailed r.
(** prover.rs:547-651 [get_constraint_polynomials]: the substituted constraint system and the polynomials *)
Definition get_constraint_polynomials (trace_lde : list (list F)) (c : constraints (F := F)) (claims : list (list F)) (coefficients : list F) (trace_length : nat)
    : option (constraints (F := F) * list (list F)) :=
  let? constraint_degree := c_degree o dbg c in
  let? eval_degree := unext constraint_degree in
  let? coset_size := umul dbg (Z.of_nat trace_length) eval_degree in
  let? trace_coset := extract_trace_coset o e trace_lde (Z.to_nat coset_size) in
  let? combined := combine o dbg c coefficients in
  let? combined := substitute_claim o claims combined in
  let? c' := substitute o claims c in
  let? values := graph_values o e kseed ktrace JOB (egen e) trace_coset (Z.to_nat eval_degree) combined in
  let? polys := constraint_polynomials o e values (Z.to_nat eval_degree) trace_length in
  Some (c', polys).
(** prover.rs:653-705 [oods_combine], with the sample point as a ghost output *)
Definition oods_combine (trace_polynomials : list (list F)) (trace_arguments : list (nat * Z)) (constraint_polys : list (list F)) : PM (F * list F) :=
  do oods_point <- chan (p_coin draw_elem);
  do values <- lift (oods_trace_values o e trace_polynomials trace_arguments oods_point);
  do _ <- act_iter (fun x => chan (w_elem x)) values;
  do _ <- act_iter (fun x => chan (w_elem x)) (oods_constraint_values o constraint_polys oods_point);
  do trace_coefficients <- chan (p_coin (draw_elems (length trace_arguments)));
  do constraint_coefficients <- chan (p_coin (draw_elems (length constraint_polys)));
  do combined <- lift (oods_combined o e trace_polynomials trace_arguments constraint_polys oods_point trace_coefficients constraint_coefficients);
  ret (oods_point, combined).
(** prover.rs:96-101 [FriLeaves] with its tree *)
Record fri_tree : Type := FriTree { ft_tree : tree; ft_coset_size : nat; ft_layer : list F }.
(** prover.rs:737-822: the loop over the layout. [2_usize.pow(n)] overflows from 64 on; the fold does not exist then.
    The capacity of the next layer is not modelled. *)
Fixpoint fri_commit (x_inv : list F) (layout : list nat) (layer : list F) : PM (list fri_tree * list F) :=
  match layout with
  | [] => ret ([], layer)
  | n_reductions :: layout =>
      do coset_size <- lift (ushl1 dbg (Z.of_nat n_reductions));
      do leaves <- lift (fri_leaves (Z.to_nat coset_size) layer);
      do tree <- commit leaves;
      do _ <- chan (w_hash (c_hash (t_commitment tree)));
      do coefficient <- chan (p_coin draw_elem);
      do next_layer <- lift (fold_layer o n_reductions coefficient x_inv layer);
      do r <- fri_commit x_inv layout next_layer;
      ret (FriTree tree (Z.to_nat coset_size) layer :: fst r, snd r)
  end.
(** prover.rs:711-833 [perform_fri_layering] *)
Definition perform_fri_layering (first_layer : list F) (layout : list nat) (blowup : nat) : PM (list fri_tree) :=
  do r <- lift (fri_x_inv o e (length first_layer));
  match r with
  | None => fail PRootUnavailable
  | Some x_inv =>
      do r <- fri_commit x_inv layout first_layer;
      do points <- lift (last_layer o e blowup (snd r));
      do _ <- chan (w_layer points);
      ret (fst r)
  end.
(** prover.rs:487-492, 494-499 *)
Definition write_decommitment (t : tree) (indices : list Z) : PM unit :=
  do r <- lift (MerkleModel.open node_of leaf_of sort_idx t indices);
  do p <- merkle MerkleFailed r;
  chan (w_hashes (MerkleModel.p_hashes p)).
Definition write_leaves (t : tree) (indices : list Z) : PM unit :=
  act_iter (fun index => do l <- lift (nth_error (t_leaves t) (Z.to_nat index)); chan (w_leaf l)) indices.
(** prover.rs:835-866 [decommit_fri_layers_and_trees] *)
Fixpoint decommit_fri (trees : list fri_tree) (previous_indices : list Z) : PM unit :=
  match trees with
  | [] => ret tt
  | t :: trees =>
      do indices <- lift (option_all (map (fun x => udiv x (Z.of_nat (ft_coset_size t))) previous_indices));
      let new_indices := dedup_by (fun x => x) indices in
      do _ <- act_iter (fun i => act_iter (fun j =>
        let n := (i * Z.of_nat (ft_coset_size t) + Z.of_nat j)%Z in
        match search previous_indices n with
        | Some _ => ret tt
        | None => do x <- lift (nth_error (ft_layer t) (Z.to_nat n)); chan (w_elem x)
        end) (seq 0 (ft_coset_size t))) new_indices;
      do _ <- write_decommitment (ft_tree t) new_indices;
      decommit_fri trees new_indices
  end.
(** prover.rs:347-505 [prove], up to the verification, on the channel. The constraint coefficients and the sample
    point are ghost outputs, which the code does not have. *)
Definition prove_channel (c : constraints (F := F)) (claims : list (list F)) (trace : table F) : PM (list F * F) :=
  do trace_polynomials <- lift (interpolate o e trace);
  do trace_lde <- lift (option_all (map (fun p => low_degree_extension o e p (Z.to_nat (c_blowup c))) trace_polynomials));
  do leaves <- lift (lde_leaves trace_lde);
  do tree <- commit leaves;
  do _ <- chan (w_hash (c_hash (t_commitment tree)));
  do constraint_coefficients <- chan (p_coin (draw_elems (2 * length (c_exprs c))));
  do r <- lift (get_constraint_polynomials trace_lde c claims constraint_coefficients (t_rows trace));
  match r with (c', constraint_polys) =>
    do constraint_lde <- lift (option_all (map (fun p => low_degree_extension o e p (Z.to_nat (c_blowup c))) constraint_polys));
    do leaves <- lift (lde_leaves constraint_lde);
    do c_tree <- commit leaves;
    do _ <- chan (w_hash (c_hash (t_commitment c_tree)));
    do trace_arguments <- lift (c_trace_arguments c');
    do r <- oods_combine trace_polynomials trace_arguments constraint_polys;
    match r with (oods_point, oods_polynomial) =>
      do first_fri_layer <- lift (low_degree_extension o e oods_polynomial (Z.to_nat (c_blowup c)));
      do fri_trees <- perform_fri_layering first_fri_layer (c_fri c) (Z.to_nat (c_blowup c));
      do pow_seed <- chan (p_coin (draw_seed dbg));
      do pow_challenge <- lift (with_difficulty keccak pow_seed (c_pow_bits c));
      do pow_response <- lift (solve pow_challenge);
      do _ <- lift (dassert dbg (pow_verify keccak pow_challenge pow_response));
      do _ <- chan (w_nonce pow_response);
      do eval_domain_size <- lift (umul dbg (Z.of_nat (t_rows trace)) (c_blowup c));
      do bits <- lift (p_query_bits dbg eval_domain_size);
      do query_indices <- chan (p_coin (p_get_indices dbg keccak sort_idx (Z.to_nat (c_queries c)) bits));
      do _ <- write_leaves tree query_indices;
      do _ <- write_decommitment tree query_indices;
      do _ <- write_leaves c_tree query_indices;
      do _ <- write_decommitment c_tree query_indices;
      do _ <- decommit_fri fri_trees query_indices;
      ret (constraint_coefficients, oods_point)
    end
  end.
Definition transcript (c : constraints (F := F)) (claims : list (list F)) (seed : list Z) (trace : table F) : option (result perror (list Z * (list F * F))) :=
  match prove_channel c claims trace (prover_new keccak seed) with
  | None => None
  | Some (Bad err) => Some (Bad err)
  | Some (Good (ghost, p)) => Some (Good (pproof p, ghost))
  end.
(** prover.rs:347-512 [prove]; a verification error is wrapped by [From] *)
Definition stark_prove (c : constraints (F := F)) (claims : list (list F)) (seed : list Z) (trace : table F) : option (result perror (list Z)) :=
  match transcript c claims seed trace with
  | None => None
  | Some (Bad err) => Some (Bad err)
  | Some (Good (proof, _)) =>
      match stark_verify c claims seed proof with
      | None => None
      | Some (Bad err) => Some (Bad (VerificationFailed err))
      | Some (Good _) => Some (Good proof)
      end
  end.
End Stark.
