(** Claims of the same example. *)
Require Import ZArith List.
From Verif Require Import U256Spec FieldSig ExprModel ExprSpec SeedModel.
Open Scope Z_scope.

Section Spec.
Context {F : Type}.
Definition same_example (c c' : example_claim (F := F)) : Prop :=
  match c, c' with
  | Constant _, Constant _ | ClaimPolynomial _, ClaimPolynomial _ | SmallFib _ _, SmallFib _ _ | LargeFib _ _, LargeFib _ _ | MimcCubic _ _, MimcCubic _ _
  | MimcQuadratic _ _, MimcQuadratic _ _ | MimcHash _ _ _, MimcHash _ _ _ | MimcTree _ _ _, MimcTree _ _ _ | Vdf _ _ _ _, Vdf _ _ _ _ | PedersenMerkle _ _ _, PedersenMerkle _ _ _ => True
  | _, _ => False
  end.
(** The indices are numbers of type usize. *)
Definition in_usize (c : example_claim (F := F)) : Prop :=
  match c with SmallFib n _ | LargeFib n _ | PedersenMerkle n _ _ => 0 <= n < 2 ^ 64 | _ => True end.
(** Equal, or claims of mimc_tree.rs that differ in [start_left] at most. *)
Definition equal_but_start (c c' : example_claim (F := F)) : Prop :=
  c = c' \/ exists element root s s', c = MimcTree element root s /\ c' = MimcTree element root s'.
(** What C58 asks of a constraint system over traces of length 2^k, with the blowup 2^b. *)
Record well_formed (o : ops F) (M k b : nat) (c : constraints (F := F)) : Prop := {
  wf_rows : c_nrows c = (2 ^ k)%nat; wf_blowup : c_blowup c = 2 ^ Z.of_nat b; wf_domain : (k + b <= M)%nat; wf_layers : (list_sum (c_fri c) <= k)%nat; wf_queries : 0 <= c_queries c < 2 ^ 64;
  wf_exprs : forall ex, In ex (c_exprs c) -> usizes ex /\ forall i j, refers ex i j -> - 2 ^ 63 < j < 2 ^ 63;
  wf_degree : forall D, c_degree o true c = Some D -> D <= 2 ^ 63;
  wf_combine : forall cs, length cs = (2 * length (c_exprs c))%nat -> combine o true c cs <> None }.
End Spec.
