(** crypto/stark/src/solidity_verifier.rs: generation of the contract that evaluates the constraints, and what the
    contract computes (crypto/stark/assets/OodsPoly.sol, Periodic.sol).

    The text of an expression is represented by its syntax tree; its rendering and the other contracts (Trace.sol,
    Wrapper.sol) are not modelled. A revert, a panic of the generator or an access that is not aligned is [None].
    Gas is not modelled. The numbers of the generator (usize) are not bounded here. *)
Require Import String ZArith Lia Bool List.
From Verif Require Import Word KnuthModel FieldSig FieldAlgModel Arr FftModel StarkBase PolyModel TraceModel ExprModel.
Import ListNotations.
Open Scope Z_scope.

(** ** The machine *)
Definition W256 : Z := 2 ^ 256.
(** The expressions of the template and of [soldity_encode] *)
Inductive yul : Set :=
  | YNum (n : Z) | YCallvalue | YMload (a : yul) | YCalldataload (a : yul) | YSub (a b : yul) | YAddmod (a b m : yul) | YMulmod (a b m : yul)
  | YExp2 (a : yul) | YExp3 (a : yul) | YExp4 (a : yul) | YSmallExpmod (a b : yul) | YMidExpmod (a b : yul).
(** Memory: the word at an address that is a multiple of 32 *)
Definition memory : Set := Z -> Z.
Definition mload (mem : memory) (a : Z) : option Z := if a mod 32 =? 0 then Some (mem a) else None.
Definition mstore (mem : memory) (a v : Z) : option memory := if a mod 32 =? 0 then Some (fun b => if b =? a then v else mem b) else None.
Definition y_add (a b : Z) : Z := (a + b) mod W256.
Definition y_sub (a b : Z) : Z := (a - b) mod W256.
Definition y_addmod (a b m : Z) : Z := if m =? 0 then 0 else (a + b) mod m.
Definition y_mulmod (a b m : Z) : Z := if m =? 0 then 0 else (a * b) mod m.
(** The precompiled contract 5 *)
Definition modexp (b e m : Z) : Z := if m =? 0 then 0 else b ^ e mod m.
(** OodsPoly.sol:16-29 [expmod]; [p] is the address [expmod_context]. *)
Definition y_expmod (p base exponent : Z) (mem : memory) : option (Z * memory) :=
  let? mem := mstore mem p 0x20 in
  let? mem := mstore mem (y_add p 0x20) 0x20 in
  let? mem := mstore mem (y_add p 0x40) 0x20 in
  let? mem := mstore mem (y_add p 0x60) base in
  let? mem := mstore mem (y_add p 0x80) exponent in
  let? m := mload mem 0 in
  let? mem := mstore mem (y_add p 0xa0) m in
  let? b := mload mem (y_add p 0x60) in
  let? e := mload mem (y_add p 0x80) in
  let? m := mload mem (y_add p 0xa0) in
  let? mem := mstore mem p (modexp b e m) in
  let? result := mload mem p in
  Some (result, mem).
(** OodsPoly.sol:60-65 [small_expmod] *)
Fixpoint y_small (exponent : nat) (base m result : Z) : Z := match exponent with O => result | S exponent => y_small exponent base m (y_mulmod result base m) end.
(** Evaluation; arguments are evaluated from the last to the first. The bodies of the functions are at
    OodsPoly.sol:46-77; the modulus there is [mload(callvalue())]. *)
Fixpoint yeval (p : Z) (data : Z -> Z) (e : yul) (mem : memory) : option (Z * memory) :=
  match e with
  | YNum n => Some (n, mem)
  | YCallvalue => Some (0, mem)
  | YMload a => let? r := yeval p data a mem in match r with (a, mem) => let? v := mload mem a in Some (v, mem) end
  | YCalldataload a => let? r := yeval p data a mem in match r with (a, mem) => Some (data a, mem) end
  | YSub a b => let? r := yeval p data b mem in match r with (b, mem) => let? r := yeval p data a mem in match r with (a, mem) => Some (y_sub a b, mem) end end
  | YAddmod a b m =>
      let? r := yeval p data m mem in match r with (m, mem) => let? r := yeval p data b mem in match r with (b, mem) =>
      let? r := yeval p data a mem in match r with (a, mem) => Some (y_addmod a b m, mem) end end end
  | YMulmod a b m =>
      let? r := yeval p data m mem in match r with (m, mem) => let? r := yeval p data b mem in match r with (b, mem) =>
      let? r := yeval p data a mem in match r with (a, mem) => Some (y_mulmod a b m, mem) end end end
  | YExp2 a => let? r := yeval p data a mem in match r with (a, mem) => let? m := mload mem 0 in Some (y_mulmod a a m, mem) end
  | YExp3 a => let? r := yeval p data a mem in match r with (a, mem) => let? m := mload mem 0 in Some (y_mulmod (y_mulmod a a m) a m, mem) end
  | YExp4 a => let? r := yeval p data a mem in match r with (a, mem) => let? m := mload mem 0 in let s := y_mulmod a a m in Some (y_mulmod s s m, mem) end
  | YSmallExpmod a b =>
      let? r := yeval p data b mem in match r with (b, mem) => let? r := yeval p data a mem in match r with (a, mem) =>
      let? m := mload mem 0 in Some (y_small (Z.to_nat b) a m 1, mem) end end
  | YMidExpmod a b =>
      let? r := yeval p data b mem in match r with (b, mem) => let? r := yeval p data a mem in match r with (a, mem) => y_expmod p a b mem end end
  end.

(** ** The contract *)
(** solidity_verifier.rs:58-77 [OodsPolyContext], 38-56 *)
Record contract : Set := Contract {
  expmod_context : Z;
  degree_adjustments : list (Z * Z); (* location, exponent *)
  batch_inverted : list (Z * yul); (* location, expression *)
  sums : list ((Z * Z) * (yul * yul)); (* locations of the coefficients, degree adjustment and expression *)
  products_to_values : Z; partial_product_end : Z; partial_product_start : Z; first_partial_product : Z; last_partial_product : Z }.
Section Run.
Context (k : contract) (data : Z -> Z).
Local Notation eval := (yeval (expmod_context k) data).
(** solidity_verifier.rs:663-664 *)
Definition y_modulus : yul := YMload YCallvalue.
Definition y_point : yul := YCalldataload YCallvalue.
(** OodsPoly.sol:79-82 *)
Fixpoint store_adjustments (l : list (Z * Z)) (mem : memory) : option memory :=
  match l with
  | [] => Some mem
  | (location, exponent) :: l => let? r := eval (YMidExpmod y_point (YNum exponent)) mem in let? mem := mstore (snd r) location (fst r) in store_adjustments l mem
  end.
(** OodsPoly.sol:84-87 *)
Fixpoint store_values (l : list (Z * yul)) (mem : memory) : option memory :=
  match l with
  | [] => Some mem
  | (location, expression) :: l => let? r := eval expression mem in let? mem := mstore (snd r) location (fst r) in store_values l mem
  end.
(** OodsPoly.sol:98-107: the cumulative products. [None] if the loop runs more than [fuel] times. *)
Fixpoint cumulate (fuel : nat) (ptr prod : Z) (mem : memory) : option (Z * memory) :=
  match fuel with
  | O => None
  | S fuel =>
      if ptr <? partial_product_end k then
        let? mem := mstore mem ptr prod in
        let? m := mload mem 0 in
        let? d := mload mem (y_add ptr (products_to_values k)) in
        cumulate fuel (y_add ptr 0x20) (y_mulmod prod d m) mem
      else Some (prod, mem)
  end.
(** OodsPoly.sol:109-142: the inverses, from the last to the first *)
Fixpoint distribute (fuel : nat) (ptr prod_inv : Z) (mem : memory) : option memory :=
  match fuel with
  | O => None
  | S fuel =>
      if first_partial_product k <? ptr then
        let ptr := y_sub ptr 0x20 in
        let? m := mload mem 0 in
        let? q := mload mem ptr in
        let? mem := mstore mem ptr (y_mulmod q prod_inv m) in
        let? d := mload mem (y_add ptr (products_to_values k)) in
        distribute fuel ptr (y_mulmod prod_inv d m) mem
      else Some mem
  end.
(** OodsPoly.sol:145-151 *)
Fixpoint sum_up (l : list ((Z * Z) * (yul * yul))) (res : Z) (mem : memory) : option Z :=
  match l with
  | [] => Some res
  | ((first, second), (adjustment, expression)) :: l =>
      let? r := eval expression mem in
      match r with (val, mem) =>
        let? m := mload mem 0 in
        let? r := eval adjustment mem in
        match r with (adjustment, mem) => sum_up l (y_addmod res (y_mulmod val (y_add (data first) (y_mulmod (data second) adjustment m)) m) m) mem end
      end
  end.
(** OodsPoly.sol, with the modulus of its line 14 as an argument; no value is sent with the call. *)
Definition run (modulus : Z) : option Z :=
  let? mem := mstore (fun _ => 0) 0 modulus in
  let? mem := store_adjustments (degree_adjustments k) mem in
  let? mem := store_values (batch_inverted k) mem in
  let fuel := S (length (batch_inverted k)) in
  let? r := cumulate fuel (partial_product_start k) 1 mem in
  match r with (prod, mem) =>
    let? m := mload mem 0 in
    let? r := y_expmod (expmod_context k) prod (y_sub m 2) mem in
    match r with (prod_inv, mem) =>
      let? mem := distribute fuel (last_partial_product k) prod_inv mem in
      sum_up (sums k) 0 mem
    end
  end.
End Run.
(** OodsPoly.sol:14 *)
Definition template_modulus : Z := 0x800000000000011000000000000000000000000000000000000000000000001.
(** Periodic.sol: the first coefficient in the list is the highest. *)
Fixpoint horner (m x : Z) (coefficients : list Z) (y : Z) : Z :=
  match coefficients with
  | [] => y
  | [c] => y_addmod (y_mulmod x y m) c m
  | c :: l => horner m x l (y_add (y_mulmod x y m) c)
  end.
Definition periodic_run (m : Z) (coefficients : list Z) (x : Z) : Z := match coefficients with [] => 0 | c :: l => horner m x l c end.

(** ** The generator *)
Section Generate.
Context {F : Type} (o : ops F) (dbg : bool).
Notation expr := (rexpr F).
(** [U256::from(c)] *)
Context (num : F -> Z).
(** rational_expression.rs:338-414: expressions are ordered by a hash of 64 bits. The hasher (DefaultHasher) is a
    function of what is fed to it; the hash of a polynomial depends on a value at a fixed point. A panic while this
    value is computed is an option in what is hashed. *)
Inductive token : Type := TStr (s : string) | TNum (n : Z) | TElem (x : option F).
Context (hasher : list token -> Z) (fixed_point : F).
Fixpoint tokens (e : expr) : list token :=
  match e with
  | EX => [TStr "x"]
  | EConst c => [TElem (Some c)]
  | ETrace i j => [TStr "trace"; TNum (Z.of_nat i); TNum j]
  | EPoly _ _ => [TStr "poly"; TElem (eval_expr o fixed_point (fun _ _ => None) e)]
  | EAdd a b => TStr "add" :: tokens a ++ tokens b
  | ENeg a => TStr "neg" :: tokens a
  | EMul a b => TStr "mul" :: tokens a ++ tokens b
  | EInv a => TStr "inv" :: tokens a
  | EExp a n => TStr "exp" :: tokens a ++ [TNum n]
  | EClaim i n a => TStr "claim_polynomial" :: TNum (Z.of_nat i) :: TNum n :: tokens a
  end.
Definition get_hash (e : expr) : Z := hasher (tokens e).
(** A BTreeMap from expressions to text, the last insertion first *)
Definition layout : Type := list (expr * yul).
Definition get (l : layout) (e : expr) : option yul := option_map snd (find (fun kv => get_hash (fst kv) =? get_hash e) l).
(** solidity_verifier.rs:130-192 [soldity_encode] *)
Definition encode_power (s : option yul) (n : Z) : option yul :=
  if n =? 0 then Some (YNum 1) else
  let? s := s in
  Some (if n =? 1 then s else if n =? 2 then YExp2 s else if n =? 3 then YExp3 s else if n =? 4 then YExp4 s
        else if n <? 16 then YSmallExpmod s (YNum n) else YMidExpmod s (YNum n)).
Fixpoint soldity_encode (l : layout) (e : expr) : option yul :=
  match get l e with
  | Some s => Some s
  | None =>
      match e with
      | EConst c => Some (YNum (num c))
      | EAdd a b => let? a := soldity_encode l a in let? b := soldity_encode l b in Some (YAddmod a b y_modulus)
      | ENeg a => let? a := soldity_encode l a in Some (YSub y_modulus a)
      | EMul a b => let? a := soldity_encode l a in let? b := soldity_encode l b in Some (YMulmod a b y_modulus)
      | EExp a n =>
          (fix collapse (a : expr) (n : Z) : option yul :=
             match a with
             | EExp a' f => let? n := umul dbg n f in match get l (EExp a' n) with Some s => Some s | None => collapse a' n end
             | _ => encode_power (soldity_encode l a) n
             end) a n
      | _ => None
      end
  end.
(** solidity_verifier.rs:194-259: the searches. The sets are lists here; [collect] below removes what is there twice.
    Where different expressions have the same hash, another one of them may be kept. *)
Fixpoint trace_search (e : expr) : list expr :=
  match e with
  | EX | EConst _ => []
  | ETrace _ _ => [e]
  | EAdd a b | EMul a b => trace_search a ++ trace_search b
  | EClaim _ _ a | EPoly _ a | EInv a | EExp a _ | ENeg a => trace_search a
  end.
Fixpoint inv_search (e : expr) : list expr :=
  match e with
  | EX | EConst _ | ETrace _ _ => []
  | EAdd a b | EMul a b => inv_search a ++ inv_search b
  | EInv _ => [e]
  | EClaim _ _ a | EPoly _ a | EExp a _ | ENeg a => inv_search a
  end.
Fixpoint periodic_search (e : expr) : list expr :=
  match e with
  | EX | EConst _ | ETrace _ _ | EClaim _ _ _ => []
  | EPoly _ _ => [e]
  | EAdd a b | EMul a b => periodic_search a ++ periodic_search b
  | EInv a | EExp a _ | ENeg a => periodic_search a
  end.
Fixpoint claim_polynomial_search (e : expr) : list expr :=
  match e with
  | EClaim _ _ _ => [e]
  | EX | EConst _ | ETrace _ _ | EPoly _ _ => []
  | EAdd a b | EMul a b => claim_polynomial_search a ++ claim_polynomial_search b
  | EInv a | EExp a _ | ENeg a => claim_polynomial_search a
  end.
Fixpoint collect (l : list expr) : list expr :=
  match l with [] => [] | e :: l => e :: filter (fun e' => negb (get_hash e' =? get_hash e)) (collect l) end.
(** solidity_verifier.rs:673-695: inputs are in the call data. *)
Fixpoint place_inputs (keys : list expr) (index : Z) (l : layout) : layout :=
  match keys with [] => l | e :: keys => place_inputs keys (index + 1) ((e, YCalldataload (YNum (index * 32))) :: l) end.
(** solidity_verifier.rs:706-719 *)
Fixpoint place_adjustments (degrees : list Z) (index : Z) (l : layout) : list (Z * Z) * Z * layout :=
  match degrees with
  | [] => ([], index, l)
  | degree :: degrees =>
      match get l (EExp EX degree) with
      | Some _ => place_adjustments degrees index l
      | None =>
          match place_adjustments degrees (index + 1) ((EExp EX degree, YMload (YNum (index * 32))) :: l) with
          | (das, index', l) => ((index * 32, degree) :: das, index', l)
          end
      end
  end.
(** solidity_verifier.rs:721-743 *)
Fixpoint place_inverses (inverses : list expr) (index position : Z) (l : layout) : option (list (Z * yul) * layout) :=
  match inverses with
  | [] => Some ([], l)
  | EInv a :: inverses =>
      let? expression := soldity_encode l a in
      let? r := place_inverses inverses (index + 1) (position + 1) ((EInv a, YMload (YNum (position * 32))) :: l) in
      Some ((index * 32, expression) :: fst r, snd r)
  | _ :: _ => None
  end.
(** solidity_verifier.rs:752-769 *)
Fixpoint place_sums (l : layout) (exprs : list expr) (degrees : list Z) (coefficient_index : Z) : option (list ((Z * Z) * (yul * yul))) :=
  match exprs, degrees with
  | e :: exprs, degree :: degrees =>
      let? degree_adjustment_location := get l (EExp EX degree) in
      let? expression := soldity_encode l e in
      let? r := place_sums l exprs degrees (coefficient_index + 2) in
      Some (((coefficient_index * 32, (coefficient_index + 1) * 32), (degree_adjustment_location, expression)) :: r)
  | _, _ => Some []
  end.
(** solidity_verifier.rs:647-776 [write_oods_poly], up to the rendering *)
Definition write_oods_poly (num_constraints : nat) (claim_polynomial_keys inverses traces periodic : list expr) (adjustment_degrees : list Z) (exprs : list expr) : option contract :=
  let n := Z.of_nat (length inverses) in
  let l := [(EX, y_point)] in
  let l := place_inputs claim_polynomial_keys 1 l in
  let index := 1 + Z.of_nat (length claim_polynomial_keys) in
  let l := place_inputs periodic index l in
  let index := index + Z.of_nat (length periodic) in
  let l := place_inputs traces (index + Z.of_nat num_constraints * 2) l in
  match place_adjustments adjustment_degrees 1 l with
  | (das, inverse_start_index, l) =>
      let index := inverse_start_index + n in
      let? r := place_inverses inverses index inverse_start_index l in
      let? cs := place_sums (snd r) exprs adjustment_degrees (1 + Z.of_nat (length claim_polynomial_keys) + Z.of_nat (length periodic)) in
      Some (Contract ((index + n) * 32) das (fst r) cs (n * 32) ((inverse_start_index + n) * 32) (inverse_start_index * 32) (inverse_start_index * 32) ((inverse_start_index + n) * 32))
  end.
(** solidity_verifier.rs:297-378 [generate]: the contract, and the keys of the call data. The order of a set by hash
    and the lexicographic order of trace cells are arguments. *)
Definition generate (order trace_order : list expr -> list expr) (c : constraints (F := F)) : option (contract * (list expr * list expr * list expr)) :=
  let exprs := c_exprs c in
  let trace_keys := trace_order (collect (flat_map trace_search exprs)) in
  let inverse_keys := order (collect (flat_map inv_search exprs)) in
  let claim_polynomial_keys := order (collect (flat_map claim_polynomial_search exprs)) in
  let periodic_keys := order (collect (flat_map periodic_search exprs)) in
  let? target := target_degree o dbg c in
  let? adjustment_degrees := option_all (map (adjustment_degree o dbg (c_nrows c) target) exprs) in
  let? k := write_oods_poly (length exprs) claim_polynomial_keys inverse_keys trace_keys periodic_keys adjustment_degrees exprs in
  Some (k, (claim_polynomial_keys, periodic_keys, trace_keys)).
End Generate.
