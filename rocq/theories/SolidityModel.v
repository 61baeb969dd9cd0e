(** crypto/stark/src/solidity_seralizer.rs: a proof as text for a call of the Solidity verifier.

    Text is a list of character codes. [None] is a panic. The parameters are those of StarkModel. When the function
    returns an error, the text written so far stays in the buffer of the caller; here an error has no text. *)
Require Import Ascii String ZArith Bool List.
From Verif Require Import Word U256Model BinaryModel KnuthModel EncodingModel FieldSig FieldAlgModel Arr FftModel StarkBase PolyModel TraceModel ExprModel
  HashModel MerkleModel ChannelModel PowModel QueryModel FriModel OodsModel StarkModel.
Import ListNotations.
Open Scope nat_scope.

(** A string literal *)
Definition lit (s : string) : list Z := map (fun a => Z.of_N (N_of_ascii a)) (list_ascii_of_string s).
(** The escape sequence [\n] *)
Definition newline : list Z := [10%Z].

(** solidity_seralizer.rs:20-30: [format!("\"0x{}\"", encode(..))] *)
Definition sol_word (b : list Z) : list Z := lit """0x" ++ hex_encode b ++ lit """".
(** solidity_seralizer.rs:26-36 [sol_encode] of Hash and Commitment *)
Definition sol_hash (h : hash) : list Z := sol_word h.
(** solidity_seralizer.rs:49-53: the entries, all but the last followed by a comma *)
Fixpoint sol_entries {A} (sol_encode : A -> list Z) (rest : list A) (last : A) : list Z :=
  match rest with
  | [] => sol_encode last ++ newline
  | data :: rest => (sol_encode data ++ lit "," ++ newline) ++ sol_entries sol_encode rest last
  end.
(** solidity_seralizer.rs:40-57 [sol_encode] of Vec: an empty vector has no text. *)
Definition sol_vec {A} (sol_encode : A -> list Z) (l : list A) : list Z :=
  match rev l with
  | [] => []
  | last :: rest => (lit "[" ++ newline) ++ sol_entries sol_encode (rev rest) last ++ lit "]"
  end.
(** [format!("\"key\": {}, \n", value)] *)
Definition sol_field (key : string) (value : list Z) : list Z := lit """" ++ lit key ++ lit """: " ++ value ++ lit ", " ++ newline.

Section Solidity.
Context {F : Type} (o : ops F) (e : engine F) (keccak : list Z -> list Z).
Context (enc : F -> u256) (dec : u256 -> option F).
Context (sort_idx : list Z -> list Z) (search : list Z -> Z -> option nat).
Context (fuel : nat).
Local Notation dbg := (edbg e).
Local Notation SM := (act verifier merror).
(** solidity_seralizer.rs:20-24 [sol_encode] of FieldElement *)
Definition sol_elem (x : F) : list Z := sol_word (to_bytes_be (enc x)).
(** [?] *)
Definition merr {A} (r : res A) : SM A := merkle (fun err => err) r.
(** solidity_seralizer.rs:123-129 *)
Fixpoint sol_fri (layout : list nat) (fri_size : Z) : SM (list (commitment (H := hash)) * Z) :=
  match layout with
  | [] => ret ([], fri_size)
  | num_folds :: layout =>
      do fri_size <- lift (ushr e fri_size num_folds);
      do root <- chan (replay_hash keccak);
      do commitment <- merr (from_size_hash fri_size root);
      do eval_point <- chan (v_coin (draw_elem e keccak dec fuel));
      do r <- sol_fri layout fri_size;
      ret (commitment :: fst r, snd r)
  end.
(** solidity_seralizer.rs:168-169, 191-192, 226-227: the hashes of a Merkle proof *)
Definition sol_path (c : commitment (H := hash)) (indices : list Z) : SM (list hash) :=
  do r <- lift (proof_size sort_idx c indices);
  do length <- merr r;
  chan (replay_many (replay_hash keccak) (Z.to_nat length)).
(** solidity_seralizer.rs:212-237: the loop over the FRI layers. [layers] are the commitment and the layout entry of
    the layers left; the products [i * coset_size + j] are at most the size of the domain. *)
Fixpoint sol_layers (layers : list (commitment (H := hash) * nat)) (fri_indices previous_indices : list Z) : SM (list (list F) * list (list hash)) :=
  match layers with
  | [] => ret ([], [])
  | (commitment, num_folds) :: layers =>
      let fri_indices := dedup_by (fun x => x) fri_indices in
      do coset_size <- lift (ushl1 dbg (Z.of_nat num_folds));
      do proof_values <- act_map (fun i => act_map (fun j =>
          let n := (i * coset_size + Z.of_nat j)%Z in
          match search previous_indices n with
          | Some _ => ret []
          | None => do held <- chan (replay_elem e keccak dec); ret [held]
          end) (seq 0 (Z.to_nat coset_size))) fri_indices;
      do merkle_hashes <- sol_path commitment fri_indices;
      do next <- match layers with
                 | [] => ret fri_indices
                 | (_, n) :: _ => do s <- lift (ushl1 dbg (Z.of_nat n)); lift (option_all (map (fun ind => udiv ind s) fri_indices))
                 end;
      do r <- sol_layers layers next fri_indices;
      ret (concat (concat proof_values) :: fst r, merkle_hashes :: snd r)
  end.
(** solidity_seralizer.rs:60-245 [proof_serialize], on the channel. The claim polynomials and the seed of the channel
    are fields of the constraint system in the code. Unlike the verifier it draws no proof of work challenge. *)
Definition serialize_channel (c : constraints (F := F)) (claims : list (list F)) (result_string : list Z) : SM (list Z) :=
  let trace_length := c_nrows c in
  let trace_cols := c_ncolumns c in
  do eval_domain_size <- lift (umul dbg (Z.of_nat trace_length) (c_blowup c));
  do low_degree_extension_root <- chan (replay_hash keccak);
  let result_string := result_string ++ sol_field "trace_commitment" (sol_hash low_degree_extension_root) in
  do lde_commitment <- merr (from_size_hash eval_domain_size low_degree_extension_root);
  do _ <- chan (v_coin (draw_elems e keccak dec fuel (2 * length (c_exprs c))));
  do constraint_evaluated_root <- chan (replay_hash keccak);
  let result_string := result_string ++ sol_field "constraint_commitment" (sol_hash constraint_evaluated_root) in
  do constraint_commitment <- merr (from_size_hash eval_domain_size constraint_evaluated_root);
  do _ <- chan (v_coin (draw_elem e keccak dec fuel));
  do parseable_constraints <- lift (substitute o claims c);
  do trace_arguments <- lift (c_trace_arguments parseable_constraints);
  do trace_values <- chan (replay_many (replay_elem e keccak dec) (length trace_arguments));
  let result_string := result_string ++ sol_field "trace_oods_values" (sol_vec sol_elem trace_values) in
  let trace_map := claimed_trace_map trace_arguments trace_values in
  do degree <- lift (c_degree o dbg c);
  do constraints_trace_degree <- lift (unext e degree);
  do claimed_constraint_values <- chan (replay_many (replay_elem e keccak dec) (Z.to_nat constraints_trace_degree));
  let result_string := result_string ++ sol_field "constraint_oods_values" (sol_vec sol_elem claimed_constraint_values) in
  do _ <- chan (v_coin (draw_elems e keccak dec fuel (length trace_map + length claimed_constraint_values)));
  do fri <- sol_fri (c_fri c) eval_domain_size;
  let result_string := result_string ++ sol_field "fri_commitments" (sol_vec (fun c => sol_hash (c_hash c)) (fst fri)) in
  do last_size <- lift (udiv (snd fri) (c_blowup c));
  do last_layer_coefficients <- chan (replay_layer e keccak dec (Z.to_nat last_size));
  let result_string := result_string ++ sol_field "last_layer_coefficients" (sol_vec sol_elem last_layer_coefficients) in
  do pow_response <- chan (replay_nonce keccak);
  let result_string := result_string ++ lit """pow_nonce"": ""0x" ++ hex_encode (u64_to_be pow_response) ++ lit """," in
  do queries <- chan (v_coin (v_get_indices dbg keccak sort_idx (Z.to_nat (c_queries c)) (v_query_bits eval_domain_size)));
  do lde_values <- act_map (fun _ => chan (replay_layer e keccak dec trace_cols)) queries;
  let result_string := result_string ++ sol_field "trace_values" (sol_vec sol_elem (concat lde_values)) in
  do lde_hashes <- sol_path lde_commitment queries;
  let result_string := result_string ++ sol_field "trace_decommitment" (sol_vec sol_hash lde_hashes) in
  do constraint_values <- act_map (fun _ => chan (replay_layer e keccak dec (Z.to_nat constraints_trace_degree))) queries;
  let result_string := result_string ++ sol_field "constraint_values" (sol_vec sol_elem (concat constraint_values)) in
  do constraint_hashes <- sol_path constraint_commitment queries;
  let result_string := result_string ++ sol_field "constraint_decommitment" (sol_vec sol_hash constraint_hashes) in
  do coset_sizes <- lift (option_all (map (fun k => ushl1 dbg (Z.of_nat k)) (c_fri c)));
  do fri_indices <- lift (option_all (map (fun x => let? s := nth_error coset_sizes 0 in udiv x s) queries));
  do r <- sol_layers (List.combine (fst fri) (c_fri c)) fri_indices queries;
  let result_string := result_string ++ sol_field "fri_values" (sol_vec (sol_vec sol_elem) (fst r)) in
  let result_string := result_string ++ lit """fri_decommitments"": " ++ sol_vec (sol_vec sol_hash) (snd r) ++ lit " " ++ newline in
  ret result_string.
(** solidity_seralizer.rs:60-245 [proof_serialize] *)
Definition proof_serialize (c : constraints (F := F)) (claims : list (list F)) (seed proof result_string : list Z) : option (result merror (list Z)) :=
  match serialize_channel c claims result_string (verifier_new keccak proof seed) with
  | None => None
  | Some (Bad err) => Some (Bad err)
  | Some (Good (text, _)) => Some (Good text)
  end.
End Solidity.
