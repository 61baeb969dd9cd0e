(** What the text of a proof should be: its parts under their names, in a format that JSON readers accept, with
    nothing lost. *)
Require Import Ascii String ZArith Bool List.
From Verif Require Import Word U256Model.
Import ListNotations.
Open Scope nat_scope.

Definition codes (s : string) : list Z := map (fun a => Z.of_N (N_of_ascii a)) (list_ascii_of_string s).
Definition nl : list Z := [10%Z].

(** ** The parts of a proof *)
(** A hash or a field element, as the 32 bytes it has in the proof. *)
Definition word := list Z.
Record pieces : Type := Pieces {
  trace_root : word; constraint_root : word;
  trace_at_point : list word; constraints_at_point : list word;
  layer_roots : list word; last_coefficients : list word;
  work : list Z;
  trace_leaves : list word; trace_path : list word;
  constraint_leaves : list word; constraint_path : list word;
  (* for each FRI layer, the values that the verifier does not know yet and the hashes *)
  layers : list (list word * list word) }.
Definition words (ps : pieces) : list word :=
  [trace_root ps; constraint_root ps] ++ trace_at_point ps ++ constraints_at_point ps ++ layer_roots ps ++ last_coefficients ps ++
  trace_leaves ps ++ trace_path ps ++ constraint_leaves ps ++ constraint_path ps ++ concat (map (fun l => fst l ++ snd l) (layers ps)).
Definition sized (ps : pieces) : Prop := Forall (fun x => length x = 32) (words ps) /\ length (work ps) = 8.
(** The parts in the order of the proof *)
Definition bytes_of (ps : pieces) : list Z :=
  trace_root ps ++ constraint_root ps ++ concat (trace_at_point ps) ++ concat (constraints_at_point ps) ++ concat (layer_roots ps) ++ concat (last_coefficients ps) ++ work ps ++
  concat (trace_leaves ps) ++ concat (trace_path ps) ++ concat (constraint_leaves ps) ++ concat (constraint_path ps) ++ concat (map (fun l => concat (fst l) ++ concat (snd l)) (layers ps)).

(** ** The text *)
Definition hex_of (d : Z) : Z := nth (Z.to_nat d) (codes "0123456789abcdef") 0%Z.
Definition show (x : list Z) : list Z := codes """0x" ++ flat_map (fun b => [hex_of (b / 16); hex_of (b mod 16)]) x ++ codes """".
Fixpoint join (sep : list Z) (l : list (list Z)) : list Z := match l with [] => [] | [x] => x | x :: l => x ++ sep ++ join sep l end.
(** An array, one entry a line. The text of an empty one is empty. *)
Definition show_list {A} (f : A -> list Z) (l : list A) : list Z :=
  match l with [] => [] | _ => codes "[" ++ nl ++ join (codes "," ++ nl) (map f l) ++ nl ++ codes "]" end.
Definition named (key : string) (value : list Z) : list Z := codes """" ++ codes key ++ codes """: " ++ value.
Definition text_of (ps : pieces) : list Z :=
  named "trace_commitment" (show (trace_root ps)) ++ codes ", " ++ nl ++
  named "constraint_commitment" (show (constraint_root ps)) ++ codes ", " ++ nl ++
  named "trace_oods_values" (show_list show (trace_at_point ps)) ++ codes ", " ++ nl ++
  named "constraint_oods_values" (show_list show (constraints_at_point ps)) ++ codes ", " ++ nl ++
  named "fri_commitments" (show_list show (layer_roots ps)) ++ codes ", " ++ nl ++
  named "last_layer_coefficients" (show_list show (last_coefficients ps)) ++ codes ", " ++ nl ++
  named "pow_nonce" (show (work ps)) ++ codes "," ++
  named "trace_values" (show_list show (trace_leaves ps)) ++ codes ", " ++ nl ++
  named "trace_decommitment" (show_list show (trace_path ps)) ++ codes ", " ++ nl ++
  named "constraint_values" (show_list show (constraint_leaves ps)) ++ codes ", " ++ nl ++
  named "constraint_decommitment" (show_list show (constraint_path ps)) ++ codes ", " ++ nl ++
  named "fri_values" (show_list (show_list show) (map fst (layers ps))) ++ codes ", " ++ nl ++
  named "fri_decommitments" (show_list (show_list show) (map snd (layers ps))) ++ codes " " ++ nl.
(** No list is empty. *)
Definition filled (ps : pieces) : Prop :=
  trace_at_point ps <> [] /\ constraints_at_point ps <> [] /\ layer_roots ps <> [] /\ last_coefficients ps <> [] /\ trace_leaves ps <> [] /\ trace_path ps <> [] /\
  constraint_leaves ps <> [] /\ constraint_path ps <> [] /\ layers ps <> [] /\ Forall (fun l => fst l <> [] /\ snd l <> []) (layers ps).

(** ** JSON *)
(** The part of JSON with objects, arrays and strings without escapes, as a reader with a stack. What it expects: *)
Inductive expects : Set := Value | ValueOrEnd | Key | KeyOrEnd | Colon | Next | InString (is_key : bool).
(** The open brackets, innermost first *)
Inductive bracket : Set := Object | Array.
Definition blank (a : Z) : bool := existsb (Z.eqb a) [32; 9; 10; 13]%Z.
Definition is (a : Z) (s : string) : bool := match codes s with [b] => (a =? b)%Z | _ => false end.
Definition read (a : Z) (st : expects * list bracket) : option (expects * list bracket) :=
  let (s, open) := st in
  match s with
  | InString k => if is a """" then Some (if k then Colon else Next, open) else if (a <? 32)%Z || is a "\" then None else Some (s, open)
  | _ =>
    if blank a then Some st else
    match s with
    | Value | ValueOrEnd =>
        if is a """" then Some (InString false, open) else if is a "[" then Some (ValueOrEnd, Array :: open) else if is a "{" then Some (KeyOrEnd, Object :: open)
        else match s, open with ValueOrEnd, Array :: open => if is a "]" then Some (Next, open) else None | _, _ => None end
    | Key | KeyOrEnd =>
        if is a """" then Some (InString true, open)
        else match s, open with KeyOrEnd, Object :: open => if is a "}" then Some (Next, open) else None | _, _ => None end
    | Colon => if is a ":" then Some (Value, open) else None
    | Next =>
        match open with
        | Array :: open' => if is a "," then Some (Value, open) else if is a "]" then Some (Next, open') else None
        | Object :: open' => if is a "," then Some (Key, open) else if is a "}" then Some (Next, open') else None
        | [] => None
        end
    | InString _ => None
    end
  end.
Fixpoint read_all (text : list Z) (st : expects * list bracket) : option (expects * list bracket) :=
  match text with [] => Some st | a :: text => let? st := read a st in read_all text st end.
Definition json (text : list Z) : Prop := read_all text (Value, []) = Some (Next, []).
(** The reader on small texts *)
Example json_yes : json (codes "{ ""a"": [""b"", [], {""c"":{}}] , ""d"": """"}") /\ json (codes "[]") /\ json (codes """x""").
Proof. vm_compute. repeat split. Qed.
Example json_no : Forall (fun t => ~ json (codes t)) [""; "{"; "{""a"": , ""b"": ""c""}"; "[,""a""]"; "[""a"",]"; "{""a"": ""b"",}"; "[""a"" ""b""]"; "{""a""}"; "{}}"; "[}"; """\""" ]%string.
Proof. repeat constructor; vm_compute; discriminate. Qed.

(** ** Reading a field element loses nothing: writing it again gives the same number. *)
Definition exact {F} (enc : F -> u256) (dec : u256 -> option F) : Prop := forall u x, wf u -> dec u = Some x -> enc x = u.
