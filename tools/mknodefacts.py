#!/usr/bin/env python3
"""Prints rocq/theories/NodeFacts.v: the direct sub-schemas of a node, its size, and what follows."""
import io, contextlib, importlib.util, os
here=os.path.dirname(os.path.abspath(__file__))
spec=importlib.util.spec_from_file_location("mkschema",os.path.join(here,"mkschema.py"))
m=importlib.util.module_from_spec(spec)
with contextlib.redirect_stdout(io.StringIO()): spec.loader.exec_module(m)
fields=m.fields
shape={"option (list (string * schemaNode))":("omaps","osz (kvsz nsize)"),
 "option (nodeOrFalse schemaNode)":("nofs","osz (nofsz nsize)"),
 "option (itemsData schemaNode)":("itemss","osz (itsz nsize)"),
 "option schemaNode":("onode","osz nsize"),
 "option (list schemaNode)":("olist","osz (lsz nsize)"),
 "list (string * schemaNode)":("(map snd)","kvsz nsize"),
 "list (ifStmt schemaNode)":("(flat_map ifs)","ifsz nsize"),
 "list schemaNode":("(fun l => l)","lsz nsize")}
print(r'''(* The direct sub-schemas of a node and a size that decreases along them.  Generated by
   tools/mknodefacts.py from the field table of Schema.v. *)
From Coq Require Import ZArith List String Bool Lia.
From Verif Require Import Base Float64 Json Schema.
Import ListNotations.
Open Scope nat_scope.

Definition onode (o : option schemaNode) : list schemaNode := match o with Some n => [n] | None => [] end.
Definition olist (o : option (list schemaNode)) : list schemaNode := match o with Some l => l | None => [] end.
Definition omaps (o : option (list (string * schemaNode))) : list schemaNode := match o with Some l => map snd l | None => [] end.
Definition nofs (o : option (nodeOrFalse schemaNode)) : list schemaNode := match o with Some d => onode (nofSchema d) | None => [] end.
Definition itemss (o : option (itemsData schemaNode)) : list schemaNode :=
  match o with Some d => onode (itNode d) ++ olist (itNodes d) | None => [] end.
Definition ifs (i : ifStmt schemaNode) : list schemaNode := onode (ifIf i) ++ onode (ifThen i) ++ onode (ifElse i).

Definition subnodes (n : schemaNode) : list schemaNode :=''')
parts=["%s (%s n)"%(shape[t][0],f) for f,t in fields if t in shape]
print("  "+" ++\n  ".join(parts)+".\n")
print(r'''Definition osz {A} (f : A -> nat) (o : option A) : nat := match o with Some a => f a | None => 0 end.
Definition lsz {A} (f : A -> nat) : list A -> nat := fix go l := match l with [] => 0 | x :: r => f x + go r end.
Definition kvsz {A} (f : A -> nat) : list (string * A) -> nat := fix go l := match l with [] => 0 | (_, x) :: r => f x + go r end.
Definition nofsz {A} (f : A -> nat) (d : nodeOrFalse A) : nat := match d with mkNOF s _ => osz f s end.
Definition itsz {A} (f : A -> nat) (d : itemsData A) : nat := match d with mkItems a b _ => osz f a + osz (lsz f) b end.
Definition ifsz1 {A} (f : A -> nat) (d : ifStmt A) : nat := match d with mkIf _ a b c => osz f a + (osz f b + osz f c) end.
Definition ifsz {A} (f : A -> nat) : list (ifStmt A) -> nat := fix go l := match l with [] => 0 | x :: r => ifsz1 f x + go r end.
''')
print("Fixpoint nsize (n : schemaNode) : nat :=\n  let '(mkNode "+" ".join("x%d"%i if t in shape else "_" for i,(f,t) in enumerate(fields))+") := n in\n  S (")
print("    "+" +\n    (".join("%s x%d"%(shape[t][1],i) for i,(f,t) in enumerate(fields) if t in shape)+")"*(len(parts)-1)+").\n")
print(r'''Definition lsum (l : list schemaNode) : nat := lsz nsize l.

Lemma lsum_app : forall a b, lsum (a ++ b) = lsum a + lsum b.
Proof. induction a; simpl; intros; auto. unfold lsum in *. simpl. rewrite IHa. lia. Qed.
Lemma lsum_onode : forall o, lsum (onode o) = osz nsize o.
Proof. destruct o; unfold lsum; simpl; lia. Qed.
Lemma lsum_olist : forall o, lsum (olist o) = osz (lsz nsize) o.
Proof. destruct o; reflexivity. Qed.
Lemma lsum_kv : forall l, lsum (map snd l) = kvsz nsize l.
Proof. induction l as [|[k x] l]; simpl; auto. Qed.
Lemma lsum_omaps : forall o, lsum (omaps o) = osz (kvsz nsize) o.
Proof. destruct o; simpl; auto. apply lsum_kv. Qed.
Lemma lsum_nofs : forall o, lsum (nofs o) = osz (nofsz nsize) o.
Proof. destruct o as [[[s|] b]|]; unfold lsum; simpl; lia. Qed.
Lemma lsum_itemss : forall o, lsum (itemss o) = osz (itsz nsize) o.
Proof.
  destruct o as [[a b c]|]; simpl; auto. change (lsum (onode a ++ olist b) = osz nsize a + osz (lsz nsize) b).
  now rewrite lsum_app, lsum_onode, lsum_olist.
Qed.
Lemma lsum_ifs : forall l, lsum (flat_map ifs l) = ifsz nsize l.
Proof.
  induction l as [|[p a b c] l]; auto.
  change (lsum ((onode a ++ onode b ++ onode c) ++ flat_map ifs l) = osz nsize a + (osz nsize b + osz nsize c) + ifsz nsize l).
  rewrite !lsum_app, !lsum_onode, IHl. lia.
Qed.

Lemma nsize_eq : forall n, nsize n = S (lsum (subnodes n)).
Proof.
  intros [''' + " ".join("x%d"%i for i in range(len(fields))) + r''']. unfold subnodes. cbn [nsize ''' + " ".join(f for f,t in fields) + r'''].
  rewrite !lsum_app, !lsum_onode, !lsum_olist, !lsum_omaps, !lsum_nofs, !lsum_itemss, !lsum_ifs, !lsum_kv.
  unfold lsum. reflexivity.
Qed.

Lemma lsum_In : forall c l, In c l -> nsize c <= lsum l.
Proof. induction l; simpl; intros []; subst; unfold lsum in *; simpl; try lia. specialize (IHl H). lia. Qed.

Theorem subnode_smaller : forall c n, In c (subnodes n) -> nsize c < nsize n.
Proof. intros. rewrite (nsize_eq n). apply lsum_In in H. lia. Qed.

Theorem node_ind' : forall P : schemaNode -> Prop,
  (forall n, (forall c, In c (subnodes n) -> P c) -> P n) -> forall n, P n.
Proof.
  intros P H n. remember (nsize n) as k eqn:E. assert (L : nsize n <= k) by lia. clear E. revert n L.
  induction k; intros n L.
  - rewrite nsize_eq in L. lia.
  - apply H. intros c Hc. apply IHk. apply subnode_smaller in Hc. lia.
Qed.

(* a sub-schema at any depth *)
Inductive within : schemaNode -> schemaNode -> Prop :=
| within_refl : forall n, within n n
| within_step : forall n c d, In c (subnodes n) -> within c d -> within n d.
''')
# per-field membership lemmas
for f,t in fields:
    if t in shape:
        print("Lemma sub_%s : forall n c, In c (%s (%s n)) -> In c (subnodes n)."%(f,shape[t][0],f))
        print("Proof. intros n c H. unfold subnodes. repeat (apply in_or_app; first [left; exact H | right]); exact H. Qed.")
