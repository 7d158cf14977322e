(* Lexicographic order, used in specifications *)
From Verif Require Import Base.

(* the order of words in a dictionary *)
Fixpoint lexc (a b : list Z) : comparison :=
  match a, b with
  | [], [] => Eq
  | [], _ => Lt
  | _, [] => Gt
  | x :: a, y :: b => match x ?= y with Eq => lexc a b | c => c end
  end.

Definition sign_of (c : comparison) : Z := match c with Lt => -1 | Eq => 0 | Gt => 1 end.

Lemma lexc_refl a : lexc a a = Eq.
Proof. induction a; cbn; auto. rewrite Z.compare_refl. auto. Qed.
Lemma lexc_eq a : forall b, lexc a b = Eq -> a = b.
Proof. induction a; intros [|y b]; cbn; try discriminate; auto. destruct (Z.compare_spec a y); try discriminate. intros. f_equal; auto. Qed.
Lemma lexc_opp a : forall b, lexc b a = CompOpp (lexc a b).
Proof. induction a; intros [|y b]; cbn; auto. rewrite (Z.compare_antisym a y). destruct (a ?= y); cbn; auto. Qed.
Lemma lexc_trans a : forall b c, lexc a b = Lt -> lexc b c = Lt -> lexc a c = Lt.
Proof.
  induction a; intros [|y b] [|z c]; cbn; try discriminate; auto.
  destruct (Z.compare_spec a y), (Z.compare_spec y z), (Z.compare_spec a z); subst; try discriminate; try lia; eauto.
Qed.
Lemma lexc_app a : forall b c d, length a = length b -> lexc (a ++ c) (b ++ d) = match lexc a b with Eq => lexc c d | r => r end.
Proof. induction a; intros [|y b] c d H; try discriminate; auto. cbn. destruct (a ?= y); auto. Qed.
