(* JSON values as Go's encoding/json sees them, and the encoding used to compare them. *)
From Coq Require Import ZArith List String Bool Lia Eqdep_dec.
From Flocq Require Import Core BinarySingleNaN.
From Verif Require Import Base Float64.
Import ListNotations.
Open Scope string_scope.
Open Scope Z_scope.

(* Go's interface{} values produced by json.Unmarshal and by the generators: nil, bool, int (only
   produced by the integer generator, number.go 192,198), float64, string, []interface{},
   map[string]interface{}. *)
Inductive json : Type :=
| JNull
| JBool (b : bool)
| JInt (z : Z)
| JFloat (f : f64)
| JStr (s : string)
| JArr (l : list json)
| JObj (m : list (string * json)).

Section JsonInd.
  Variable P : json -> Prop.
  Hypothesis Hnull : P JNull.
  Hypothesis Hbool : forall b, P (JBool b).
  Hypothesis Hint : forall z, P (JInt z).
  Hypothesis Hfloat : forall f, P (JFloat f).
  Hypothesis Hstr : forall s, P (JStr s).
  Hypothesis Harr : forall l, Forall P l -> P (JArr l).
  Hypothesis Hobj : forall m, Forall (fun kv => P (snd kv)) m -> P (JObj m).
  Fixpoint json_ind' (v : json) : P v :=
    match v with
    | JNull => Hnull
    | JBool b => Hbool b
    | JInt z => Hint z
    | JFloat f => Hfloat f
    | JStr s => Hstr s
    | JArr l => Harr l ((fix go l : Forall P l :=
        match l with [] => Forall_nil _ | x :: r => Forall_cons _ (json_ind' x) (go r) end) l)
    | JObj m => Hobj m ((fix go m : Forall (fun kv => P (snd kv)) m :=
        match m with [] => Forall_nil _ | x :: r => Forall_cons _ (json_ind' (snd x)) (go r) end) m)
    end.
End JsonInd.

(* The text json.Marshal writes, up to the choice of characters: numbers are identified by their
   exact value (Go prints the shortest decimal that reads back to the same float64, and an int of at most
   2^53 in absolute value prints the same digits as the float64 with its value; beyond, the two texts of one
   value can differ, which is not modelled), negative zero prints "-0", object keys are sorted. *)
Inductive enc : Type :=
| ENull
| EBool (b : bool)
| ENum (m e : Z)            (* m * 2^e with m odd, or m = 0 and e = 0 *)
| ENegZero
| EStr (s : string)
| EArr (l : list enc)
| EObj (m : list (string * enc)).

(* strip factors of two from the mantissa *)
Fixpoint norm_pos (m : positive) (e : Z) : positive * Z :=
  match m with
  | xO m' => norm_pos m' (e + 1)
  | _ => (m, e)
  end.

Definition enc_Z (m e : Z) : enc :=
  match m with
  | Z0 => ENum 0 0
  | Zpos p => let '(p', e') := norm_pos p e in ENum (Zpos p') e'
  | Zneg p => let '(p', e') := norm_pos p e in ENum (Zneg p') e'
  end.

Definition enc_f64 (f : f64) : option enc :=
  match f with
  | B754_zero false => Some (ENum 0 0)
  | B754_zero true => Some ENegZero
  | B754_finite s m e _ => Some (enc_Z (if s then Zneg m else Zpos m) e)
  | _ => None                                   (* NaN and Inf cannot be marshalled *)
  end.

Fixpoint ins_key (k : string) (v : enc) (l : list (string * enc)) : list (string * enc) :=
  match l with
  | [] => [(k, v)]
  | (k', v') :: r => if String.leb k k' then (k, v) :: l else (k', v') :: ins_key k v r
  end.

(* util.go 263-270 MarshalJsonToString; None is the empty string returned when marshalling fails.
   Simplification: strings are compared byte for byte (json.Marshal replaces invalid UTF-8). *)
Fixpoint marshal (v : json) : option enc :=
  match v with
  | JNull => Some ENull
  | JBool b => Some (EBool b)
  | JInt z => Some (enc_Z z 0)
  | JFloat f => enc_f64 f
  | JStr s => Some (EStr s)
  | JArr l =>
      match (fix go (l : list json) : option (list enc) :=
        match l with
        | [] => Some []
        | x :: r => match marshal x, go r with Some a, Some b => Some (a :: b) | _, _ => None end
        end) l with Some es => Some (EArr es) | None => None end
  | JObj m =>
      match (fix go (m : list (string * json)) : option (list (string * enc)) :=
        match m with
        | [] => Some []
        | (k, x) :: r => match marshal x, go r with Some a, Some b => Some (ins_key k a b) | _, _ => None end
        end) m with Some es => Some (EObj es) | None => None end
  end.

Fixpoint enc_eqb (a b : enc) : bool :=
  match a, b with
  | ENull, ENull => true
  | EBool x, EBool y => Bool.eqb x y
  | ENum m e, ENum m' e' => (m =? m') && (e =? e')
  | ENegZero, ENegZero => true
  | EStr s, EStr s' => String.eqb s s'
  | EArr l, EArr l' =>
      (fix go (l l' : list enc) : bool :=
         match l, l' with
         | [], [] => true
         | x :: r, x' :: r' => enc_eqb x x' && go r r'
         | _, _ => false
         end) l l'
  | EObj m, EObj m' =>
      (fix go (l l' : list (string * enc)) : bool :=
         match l, l' with
         | [], [] => true
         | (k, x) :: r, (k', x') :: r' => String.eqb k k' && enc_eqb x x' && go r r'
         | _, _ => false
         end) m m'
  | _, _ => false
  end.

Section EncInd.
  Variable P : enc -> Prop.
  Hypothesis H1 : P ENull.
  Hypothesis H2 : forall b, P (EBool b).
  Hypothesis H3 : forall m e, P (ENum m e).
  Hypothesis H4 : P ENegZero.
  Hypothesis H5 : forall s, P (EStr s).
  Hypothesis H6 : forall l, Forall P l -> P (EArr l).
  Hypothesis H7 : forall m, Forall (fun kv => P (snd kv)) m -> P (EObj m).
  Fixpoint enc_ind' (v : enc) : P v :=
    match v with
    | ENull => H1
    | EBool b => H2 b
    | ENum m e => H3 m e
    | ENegZero => H4
    | EStr s => H5 s
    | EArr l => H6 l ((fix go l : Forall P l :=
        match l with [] => Forall_nil _ | x :: r => Forall_cons _ (enc_ind' x) (go r) end) l)
    | EObj m => H7 m ((fix go m : Forall (fun kv => P (snd kv)) m :=
        match m with [] => Forall_nil _ | x :: r => Forall_cons _ (enc_ind' (snd x)) (go r) end) m)
    end.
End EncInd.

Lemma enc_eqb_eq : forall a b, enc_eqb a b = true <-> a = b.
Proof.
  induction a using enc_ind'; intros bb; destruct bb; simpl; split; intros Hx; try discriminate; try congruence; auto.
  - apply Bool.eqb_prop in Hx; congruence.
  - injection Hx as ->; apply Bool.eqb_reflx.
  - apply andb_prop in Hx as [A B]. apply Z.eqb_eq in A, B. congruence.
  - injection Hx as -> ->. now rewrite !Z.eqb_refl.
  - apply String.eqb_eq in Hx; congruence.
  - injection Hx as ->; apply String.eqb_refl.
  - f_equal. revert l0 Hx. induction H; destruct l0; intros; try discriminate; auto.
    apply andb_prop in Hx as [A B]. apply H in A. f_equal; auto.
  - injection Hx as <-. induction H; auto. rewrite IHForall, andb_true_r. now apply H.
  - f_equal. revert m0 Hx. induction H; destruct m0; intros; try discriminate; auto.
    + destruct x; discriminate.
    + destruct x as [k v], p as [k' v']. apply andb_prop in Hx as [A B]. apply andb_prop in A as [A C].
      apply String.eqb_eq in A. apply H in C. simpl in *. f_equal; [congruence | auto].
  - injection Hx as <-. induction H; auto. destruct x as [k v].
    rewrite IHForall, String.eqb_refl, andb_true_r. now apply H.
Qed.

Definition oenc_eqb (a b : option enc) : bool :=
  match a, b with
  | Some x, Some y => enc_eqb x y
  | None, None => true
  | _, _ => false
  end.

Lemma oenc_eqb_eq : forall a b, oenc_eqb a b = true <-> a = b.
Proof.
  intros [a|] [b|]; simpl; split; intros; try discriminate; auto.
  - f_equal; now apply enc_eqb_eq.
  - injection H as ->. now apply enc_eqb_eq.
Qed.

Definition mem_enc (x : option enc) (l : list (option enc)) : bool := existsb (oenc_eqb x) l.

Lemma mem_enc_In : forall x l, mem_enc x l = true <-> In x l.
Proof.
  intros. unfold mem_enc. rewrite existsb_exists. split.
  - intros (y & Hy & E). apply oenc_eqb_eq in E. congruence.
  - intros. exists x. split; auto. now apply oenc_eqb_eq.
Qed.

Lemma mem_enc_not_In : forall x l, mem_enc x l = false <-> ~ In x l.
Proof. intros. rewrite <- mem_enc_In. destruct (mem_enc x l); split; congruence. Qed.
