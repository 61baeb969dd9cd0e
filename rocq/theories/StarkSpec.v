(** What the theorems on the whole protocol assume of the functions it is given, of the statement that is proved and
    of the random choices. *)
Require Import ZArith List Sorted.
From Verif Require Import Word U256Model HashModel ChannelSpec MerkleSpec U256Spec FieldSig FieldModel FieldInstance StarkBase PolyModel TraceModel TraceProps ExprModel ExprSpec CheckProps OodsSatProps DagSpec PowModel.
Import ListNotations.
Open Scope Z_scope.

(** Field elements have limbs below the modulus the channel checks against, from which they can be recovered. *)
Definition codec {F} (enc : F -> u256) (dec : u256 -> option F) : Prop :=
  forall x, wf (enc x) /\ val (enc x) < val (p_modulus proth_field) /\ dec (enc x) = Some x.
(** slice::binary_search on a sorted slice: the position of an occurrence, if there is one. *)
Definition searches (search : list Z -> Z -> option nat) : Prop :=
  forall l n, StronglySorted Z.le l -> match search l n with Some z => nth_error l z = Some n | None => ~ In n l end.
(** A solver of proof of work challenges (C41). *)
Definition solves (keccak : list Z -> list Z) (solve : challenge_ -> option Z) : Prop :=
  forall c nonce, solve c = Some nonce -> 0 <= nonce < 2 ^ 64 /\ pow_verify keccak c nonce = true.
(** The functions the protocol is given: Keccak, the representation of field elements, the sorting and searching
    functions, the solver, and the orders in which the parallel loops of the Merkle trees run. *)
Record environment {F} (keccak : list Z -> list Z) (enc : F -> u256) (dec : u256 -> option F) (sort_idx : list Z -> list Z) (sort_nodes : list (Z * hash) -> list (Z * hash))
    (search : list Z -> Z -> option nat) (solve : challenge_ -> option Z) (orders : list (list F) -> nat -> list nat) : Prop := {
  env_hash : forall x, is_hash (keccak x);
  env_codec : codec enc dec;
  env_sort_idx : sorts (fun x => x) sort_idx;
  env_sort_nodes : sorts fst sort_nodes;
  env_search : searches search;
  env_solve : solves keccak solve;
  env_orders : forall leaves D, schedules (orders leaves) D }.

Open Scope nat_scope.
Section Statement.
Context {F : Type} (o : ops F) (e : engine F) (M : nat) (w : nat -> F).
(** The constraint system [c] is for tables of the shape of [t], 2^k rows; the blowup is 2^b, and 2^a, at most the
    blowup, is the least power of two from the degree of the constraints on. The constraints are quotients that
    select rows (C54) and the table satisfies them. The FRI layout is not empty, its entries are the folds there
    are, and they do not fold below a constant. The cofactor is not a root of unity. *)
Record proves (k b a : nat) (t : table F) (c : constraints (F := F)) : Prop := {
  i_size : k + b <= M;
  i_table : shaped t /\ t_rows t = 2 ^ k /\ 0 < t_cols t;
  i_shape : c_nrows c = t_rows t /\ c_ncolumns c = t_cols t;
  i_blowup : c_blowup c = Z.of_nat (2 ^ b) /\ a <= b;
  i_degree : exists Dg, c_degree o true c = Some Dg /\ (Dg <= 2 ^ Z.of_nat a)%Z /\ forall a', (Dg <= 2 ^ Z.of_nat a')%Z -> a <= a';
  i_exprs : forall ex, In ex (c_exprs c) -> usizes ex /\ refers_within t ex /\ (forall i j, refers ex i j -> (j < 2 ^ 63)%Z) /\
    forall tp, interpolate o e t = Some tp -> exists rows, selects o (w k) k tp ex rows;
  i_holds : check_constraints o e (c_exprs c) t = Some None;
  i_layout : c_fri c <> [] /\ Forall (fun n => 1 <= n <= 4) (c_fri c) /\ list_sum (c_fri c) <= k;
  i_queries : (0 <= c_queries c <= 2 ^ 58)%Z;
  i_coset : fpw o (egen e) (2 ^ (k + a)) <> f1 o }.
(** The values of the trace polynomials on the coset of size 2^(k+a). *)
Definition coset_table (k a : nat) (tp : list (list F)) (ct : table F) : Prop :=
  t_rows ct = 2 ^ (k + a) /\ t_cols ct = length tp /\
  forall i j, i < 2 ^ (k + a) -> j < length tp -> t_get ct i j = Some (peval o (nth j tp []) (fmul o (egen e) (fpw o (w (k + a)) i))).
(** The coefficients give a combined constraint without arithmetic overflow, which the pseudorandom point of the
    evaluation graph evaluates without collisions (C43). *)
Definition good_coefficients (kseed : F -> nat -> F) (ktrace : F -> nat -> Z -> F) (k a : nat) (t : table F) (c : constraints (F := F)) (cs : list F) : Prop :=
  exists E, combine o true c cs = Some E /\
  let seed := kseed (egen e) (2 ^ (k + a)) in
  (exists h, random_value o seed (ktrace seed) E h) /\
  forall tp ct, interpolate o e t = Some tp -> coset_table k a tp ct -> no_collision o seed (ktrace seed) (egen e) (w (k + a)) ct (2 ^ a) E.
(** The same for constraints that refer to the claim polynomials [claims]. The constraints they become when the claim
    polynomials are put in are the quotients that the table satisfies; the others speak of the constraints as given,
    where a claim polynomial has its declared degree. No claim polynomial is divided by. *)
Record proves_with (k b a : nat) (t : table F) (claims : list (list F)) (c : constraints (F := F)) : Prop := {
  j_size : k + b <= M;
  j_table : shaped t /\ t_rows t = 2 ^ k /\ 0 < t_cols t;
  j_shape : c_nrows c = t_rows t /\ c_ncolumns c = t_cols t;
  j_blowup : c_blowup c = Z.of_nat (2 ^ b) /\ a <= b;
  j_degree : exists Dg, c_degree o true c = Some Dg /\ (Dg <= 2 ^ Z.of_nat a)%Z /\ forall a', (Dg <= 2 ^ Z.of_nat a')%Z -> a <= a';
  j_exprs : forall ex, In ex (c_exprs c) -> usizes ex /\ Forall no_claims (denominators ex);
  j_holds : exists c', substitute o claims c = Some c' /\ check_constraints o e (c_exprs c') t = Some None /\
    forall ex, In ex (c_exprs c') -> refers_within t ex /\ (forall i j, refers ex i j -> (j < 2 ^ 63)%Z) /\
    forall tp, interpolate o e t = Some tp -> exists rows, selects o (w k) k tp ex rows;
  j_layout : c_fri c <> [] /\ Forall (fun n => 1 <= n <= 4) (c_fri c) /\ list_sum (c_fri c) <= k;
  j_queries : (0 <= c_queries c <= 2 ^ 58)%Z;
  j_coset : fpw o (egen e) (2 ^ (k + a)) <> f1 o }.
Definition good_with (kseed : F -> nat -> F) (ktrace : F -> nat -> Z -> F) (k a : nat) (t : table F) (claims : list (list F)) (c : constraints (F := F)) (cs : list F) : Prop :=
  exists E0 E, combine o true c cs = Some E0 /\ substitute_claim o claims E0 = Some E /\
  let seed := kseed (egen e) (2 ^ (k + a)) in
  (exists h, random_value o seed (ktrace seed) E h) /\
  forall tp ct, interpolate o e t = Some tp -> coset_table k a tp ct -> no_collision o seed (ktrace seed) (egen e) (w (k + a)) ct (2 ^ a) E.
(** The sample point is not on the trace domain; neither it nor its translates by the trace domain, nor its power,
    are on the evaluation domain. *)
Definition good_sample (k b a : nat) (z : F) : Prop :=
  (forall r, r < 2 ^ k -> z <> fpw o (w k) r) /\
  forall i, i < 2 ^ (k + b) -> let x := fmul o (egen e) (fpw o (w (k + b)) i) in x <> fpw o z (2 ^ a) /\ forall r, r < 2 ^ k -> x <> fmul o (fpw o (w k) r) z.
End Statement.
