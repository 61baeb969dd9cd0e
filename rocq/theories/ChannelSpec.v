(** What is said on a channel. *)
Require Import ZArith List.
From Verif Require Import Word U256Model U256Spec EncodingSpec.
Import ListNotations.
Open Scope Z_scope.

(** Messages; field elements are given by their limbs. *)
Inductive message : Set :=
| Hash_ (h : list Z) | Number (x : u256) | Felt_ (x : u256) | Nonce (n : Z)
| Hashes (l : list (list Z)) | Numbers (l : list u256) | Layer (l : list u256).
Inductive kind : Set :=
| KHash | KNumber | KFelt | KNonce | KHashes (n : nat) | KNumbers (n : nat) | KLayer (n : nat).
Definition kind_of (m : message) : kind :=
  match m with
  | Hash_ _ => KHash | Number _ => KNumber | Felt_ _ => KFelt | Nonce _ => KNonce
  | Hashes l => KHashes (length l) | Numbers l => KNumbers (length l) | Layer l => KLayer (length l)
  end.
(** Challenges drawn from the coin. *)
Inductive draw : Set := DBytes | DNumber | DFelt | DSeed | DCoefficients (n : nat).
Inductive event : Set :=
| Said (m : message)
| DrewBytes (b : list Z) | DrewNumber (x : u256) | DrewFelt (x : u256) | DrewSeed (b : list Z) | DrewCoefficients (l : list u256).
(** What the prover does, and the corresponding act of the verifier. *)
Inductive p_act : Set := Say (m : message) | PDraw (d : draw).
Inductive v_act : Set := Hear (k : kind) | VDraw (d : draw).
Definition mirror (a : p_act) : v_act := match a with Say m => Hear (kind_of m) | PDraw d => VDraw d end.
(** Messages of the right types. *)
Definition is_hash (h : list Z) : Prop := length h = 32%nat /\ Forall (digit 256) h.
Definition typed (m : message) : Prop :=
  match m with
  | Hash_ h => is_hash h
  | Number x | Felt_ x => wf x
  | Nonce n => 0 <= n < 2 ^ 64
  | Hashes l => Forall is_hash l
  | Numbers l | Layer l => Forall wf l
  end.
Definition act_typed (a : p_act) : Prop := match a with Say m => typed m | PDraw _ => True end.
