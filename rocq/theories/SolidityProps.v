(** The text of a proof for the Solidity verifier: crypto/stark/src/solidity_seralizer.rs [proof_serialize]. *)
Require Import Ascii String ZArith Lia Bool List.
From Verif Require Import Word U256Spec U256Model BinaryModel KnuthModel EncodingModel EncodingSpec EncodingProofs FieldSig FieldAlgModel FieldModel FieldInstance FieldProps Arr FftModel StarkBase StarkInstance PolyModel TraceModel ExprModel
  HashModel MerkleModel MerkleProps ChannelSpec ChannelModel ChannelProps PowModel QueryModel FriModel OodsModel StarkModel StarkSpec StarkProofs AcceptSpec AcceptProofs AcceptMain StarkProps SolidityModel SoliditySpec SolidityProofs.
Import ListNotations.
Open Scope nat_scope.

(** Whatever the bytes: a text that the serializer returns is its buffer followed by the text of the parts of the
    proof, and the parts, one after the other, are the beginning of the proof. *)
Theorem C67_content : forall F (o : ops F) e keccak enc dec sort_idx search fuel c claims seed proof buffer text, exact enc dec -> Forall (digit 256) proof ->
  proof_serialize o e keccak enc dec sort_idx search fuel c claims seed proof buffer = Some (Good text) ->
  exists ps rest, sized ps /\ proof = bytes_of ps ++ rest /\ text = buffer ++ text_of ps.
Proof.
  intros F o e keccak enc dec sort_idx search fuel c claims seed proof buffer text Hx D H. unfold proof_serialize in H. destruct (serialize_channel _ _ _ _ _ _ _ _ _ _ _ _) as [[[t v]|err]|] eqn:E; try discriminate H. injection H as ->.
  destruct (content o e keccak enc dec sort_idx search fuel Hx c claims buffer (verifier_new keccak proof seed) text v D E) as (ps & S & B & T). exists ps, (unread v). auto.
Qed.
Print Assumptions C67_content.

(** A proof that the verifier accepts is serialized without an error or a panic, and its parts are the whole proof. *)
Theorem C67_accepted : forall F (o : ops F) e keccak enc dec sort_idx sort_nodes search fuel c claims seed proof buffer, exact enc dec -> Forall (digit 256) proof ->
  stark_verify o e keccak enc dec sort_idx sort_nodes search fuel c claims seed proof = Some (Good tt) ->
  exists ps, sized ps /\ proof = bytes_of ps /\ proof_serialize o e keccak enc dec sort_idx search fuel c claims seed proof buffer = Some (Good (buffer ++ text_of ps)).
Proof.
  intros F o e keccak enc dec sort_idx sort_nodes search fuel c claims seed proof buffer Hx D V. unfold stark_verify in V. destruct (verify_channel _ _ _ _ _ _ _ _ _ _ _ _) as [[r|]|] eqn:E; try discriminate V. clear V.
  destruct (follow o e keccak enc dec sort_idx sort_nodes search fuel c claims buffer _ r E) as (text & v' & S & L). destruct (content o e keccak enc dec sort_idx search fuel Hx c claims buffer (verifier_new keccak proof seed) text v' D S) as (ps & P & B & ->).
  exists ps. rewrite L, app_nil_r in B. split; [exact P|]. split; [exact B|]. unfold proof_serialize. rewrite S. reflexivity.
Qed.
Print Assumptions C67_accepted.

(** The text determines the proof, even if the constraints, the claims and the seeds are not known. *)
Theorem C67_injective : forall F (o : ops F) e keccak enc dec sort_idx sort_nodes search fuel c c' claims claims' seed seed' proof proof' buffer text, exact enc dec ->
  Forall (digit 256) proof -> Forall (digit 256) proof' ->
  stark_verify o e keccak enc dec sort_idx sort_nodes search fuel c claims seed proof = Some (Good tt) ->
  stark_verify o e keccak enc dec sort_idx sort_nodes search fuel c' claims' seed' proof' = Some (Good tt) ->
  proof_serialize o e keccak enc dec sort_idx search fuel c claims seed proof buffer = Some (Good text) ->
  proof_serialize o e keccak enc dec sort_idx search fuel c' claims' seed' proof' buffer = Some (Good text) -> proof = proof'.
Proof.
  intros F o e keccak enc dec sort_idx sort_nodes search fuel c c' claims claims' seed seed' proof proof' buffer text Hx D D' V V' S S'.
  destruct (C67_accepted _ _ _ _ _ _ _ _ _ _ _ _ _ _ buffer Hx D V) as (ps & _ & B & T). destruct (C67_accepted _ _ _ _ _ _ _ _ _ _ _ _ _ _ buffer Hx D' V') as (ps' & _ & B' & T').
  rewrite S in T. rewrite S' in T'. assert (Q : text_of ps = text_of ps') by (apply (app_inv_head buffer); congruence). subst proof proof'. f_equal. apply text_inj; [apply digital_bytes, D|apply digital_bytes, D'|exact Q].
Qed.
Print Assumptions C67_injective.

(** If no list is empty, the text between braces is JSON. *)
Theorem C67_json : forall F (o : ops F) e keccak enc dec sort_idx search fuel c claims seed proof text, exact enc dec -> Forall (digit 256) proof ->
  proof_serialize o e keccak enc dec sort_idx search fuel c claims seed proof (codes "{") = Some (Good text) ->
  exists ps rest, sized ps /\ proof = bytes_of ps ++ rest /\ text = codes "{" ++ text_of ps /\ (filled ps -> json (text ++ codes "}")).
Proof.
  intros F o e keccak enc dec sort_idx search fuel c claims seed proof text Hx D S. destruct (C67_content _ _ _ _ _ _ _ _ _ _ _ _ _ _ _ Hx D S) as (ps & rest & P & B & ->). exists ps, rest. split; [exact P|]. split; [exact B|]. split; [reflexivity|].
  intros Fl. rewrite <- app_assoc. apply text_json; [|exact Fl]. apply digital_bytes. rewrite B in D. apply Forall_app in D. apply D.
Qed.
Print Assumptions C67_json.

(** The serializer does not look at what follows the parts: the text of a longer proof, which the verifier rejects, is
    the same. *)
Theorem C67_trailing_deviation : forall F (o : ops F) e keccak enc dec sort_idx search fuel c claims seed proof extra buffer text,
  proof_serialize o e keccak enc dec sort_idx search fuel c claims seed proof buffer = Some (Good text) ->
  proof_serialize o e keccak enc dec sort_idx search fuel c claims seed (proof ++ extra) buffer = Some (Good text).
Proof.
  intros F o e keccak enc dec sort_idx search fuel c claims seed proof extra buffer text H. unfold proof_serialize in *. destruct (serialize_channel _ _ _ _ _ _ _ _ _ _ _ _) as [[[t v]|err]|] eqn:E in H; try discriminate H.
  pose proof (grows_serialize o e keccak enc dec sort_idx search fuel extra c claims buffer _ _ _ E) as G. change (grow extra (verifier_new keccak proof seed)) with (verifier_new keccak (proof ++ extra) seed) in G. rewrite G. exact H.
Qed.
Print Assumptions C67_trailing_deviation.

(** Non-vacuity: the squares of C57_ex with one query and with four, and a hash function whose outputs, without their
    first four bits, are below 97. *)
Definition flat_hash (l : list Z) : list Z := let s := fold_left (fun a b => (a * 31 + b + 55555) mod 65521)%Z l 7%Z in ((s mod 16 * 16) :: repeat 0 30 ++ [s mod 97])%Z.
Definition flat_dec {p} (x : u256) : option (fe p) := match bool_dec (canon p x) true with left H => Some (exist _ x H) | right _ => None end.
(** Elements that are read as they are, as by [from_montgomery]: exact for every modulus *)
Lemma flat_exact p : exact (@raw p) flat_dec.
Proof. intros u x _. unfold flat_dec. destruct (bool_dec _ _); [|discriminate]. intros [= <-]. reflexivity. Qed.
Definition flat_c q : constraints (F := fe tiny_field) := Constraints 4 1 [toy_squares] 2 1 q [1; 1].
Definition small (n : Z) : word := repeat 0%Z 31 ++ [n].
Definition big (n : Z) : word := n :: repeat 0%Z 31.
Definition flat_pieces : pieces := Pieces (big 80) (big 32) [small 88; small 2] [small 10; small 51] [big 16; big 224] [small 60] (repeat 0%Z 8)
  [small 54] [small 36; big 176; big 112] [small 47; small 22] [big 48; big 112; big 176] [([small 31], [big 208; big 128]); ([small 39], [big 48])].
Definition flat_pieces4 : pieces := Pieces (big 80) (big 32) [small 88; small 2] [small 10; small 51] [big 16; big 224] [small 60] (repeat 0%Z 8)
  [small 54; small 54; small 54; small 34] [small 36; small 67; big 176; big 80] [small 47; small 22; small 47; small 22; small 47; small 22; small 16; small 50] [big 48; big 160; big 112; big 112]
  [([small 31; small 47], [big 208; big 224]); ([small 39; small 41], [])].
Notation flat_verify q proof := (stark_verify tiny_ops tiny_engine flat_hash (@raw tiny_field) flat_dec (isort (fun x => x)) (isort fst) toy_search 64 (flat_c q) [] [1; 2; 3]%Z proof).
Notation flat_serialize q proof buffer := (proof_serialize tiny_ops tiny_engine flat_hash (@raw tiny_field) flat_dec (isort (fun x => x)) toy_search 64 (flat_c q) [] [1; 2; 3]%Z proof buffer).
Lemma flat_sized : sized flat_pieces /\ sized flat_pieces4.
Proof. split; (split; [repeat constructor|reflexivity]). Qed.
Lemma flat_digits ps : forallb (fun x => (0 <=? x)%Z && (x <? 256)%Z) (bytes_of ps) = true -> Forall (digit 256) (bytes_of ps).
Proof. intros H. rewrite forallb_forall in H. apply Forall_forall. intros x Hx. specialize (H x Hx). unfold digit. apply andb_prop in H as [H1 H2]. lia. Qed.
Definition accepts (r : option (result verror unit)) : bool := match r with Some (Good tt) => true | _ => false end.
Lemma accepts_true r : accepts r = true -> r = Some (Good tt).
Proof. destruct r as [[[]|]|]; [reflexivity|discriminate|discriminate]. Qed.
Lemma flat_accepts : flat_verify 1%Z (bytes_of flat_pieces) = Some (Good tt).
Proof. apply accepts_true. vm_compute. reflexivity. Qed.
Lemma flat_accepts4 : flat_verify 4%Z (bytes_of flat_pieces4) = Some (Good tt).
Proof. apply accepts_true. vm_compute. reflexivity. Qed.
Definition serialized (r : option (result merror (list Z))) (t : list Z) : bool := match r with Some (Good t') => if list_eq_dec Z.eq_dec t' t then true else false | _ => false end.
Lemma serialized_true r t : serialized r t = true -> r = Some (Good t).
Proof. destruct r as [[t'|]|]; cbn [serialized]; [|discriminate|discriminate]. destruct (list_eq_dec Z.eq_dec t' t) as [->|]; [reflexivity|discriminate]. Qed.
Example C67_ex : filled flat_pieces /\ sized flat_pieces /\ length (bytes_of flat_pieces) = 744 /\ Forall (digit 256) (bytes_of flat_pieces) /\ exact (@raw tiny_field) flat_dec /\
  flat_verify 1%Z (bytes_of flat_pieces) = Some (Good tt) /\ flat_serialize 1%Z (bytes_of flat_pieces) (codes "{") = Some (Good (codes "{" ++ text_of flat_pieces)) /\
  json (codes "{" ++ text_of flat_pieces ++ codes "}") /\ flat_verify 1%Z (bytes_of flat_pieces ++ [0%Z]) = Some (Bad ProofTooLong).
Proof.
  assert (D : Forall (digit 256) (bytes_of flat_pieces)) by (apply flat_digits; vm_compute; reflexivity). assert (Fl : filled flat_pieces) by (repeat split; try discriminate; repeat constructor; discriminate).
  split; [exact Fl|]. split; [apply flat_sized|]. split; [reflexivity|]. split; [exact D|]. split; [apply flat_exact|]. split; [exact flat_accepts|].
  split; [apply serialized_true; vm_compute; reflexivity|]. split; [apply text_json; [apply digital_bytes, D|exact Fl]|]. vm_compute. reflexivity.
Qed.

(** An accepted proof whose text is not JSON: an empty list is written as nothing, and the Merkle proof of a layer all
    of whose leaves are queried is empty. *)
Theorem C67_empty_refuted : flat_verify 4%Z (bytes_of flat_pieces4) = Some (Good tt) /\ flat_serialize 4%Z (bytes_of flat_pieces4) (codes "{") = Some (Good (codes "{" ++ text_of flat_pieces4)) /\
  ~ json (codes "{" ++ text_of flat_pieces4 ++ codes "}").
Proof. split; [exact flat_accepts4|]. split; [apply serialized_true; vm_compute; reflexivity|]. intros H. vm_compute in H. discriminate H. Qed.
Print Assumptions C67_empty_refuted.
