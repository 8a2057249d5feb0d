(** Exact real arithmetic as a number system of the model. *)
From Coq Require Import Reals Lra.
From Flocq Require Import Core.
From Verif Require Import Base Num.
Open Scope R_scope.

Definition Rnum : num := {|
  car := R; nzero := 0; nmaxv := bpow radix2 1024;
  nadd := Rplus; nsub := Rminus; nmul := Rmult; ndiv := Rdiv;
  nlt := Rlt_bool; nle := Rle_bool |}.

Lemma Rlt_bool_iff a b : Rlt_bool a b = true <-> a < b.
Proof. destruct (Rlt_bool_spec a b); split; intros; try lra; try discriminate; auto. Qed.
Lemma Rlt_bool_false_iff a b : Rlt_bool a b = false <-> b <= a.
Proof. destruct (Rlt_bool_spec a b); split; intros; try lra; try discriminate; auto. Qed.

Lemma Rnum_order : order_laws Rnum (fun _ => True).
Proof.
  split; cbn [car nlt nle nmaxv Rnum]; auto.
  - intros a _. apply Rlt_bool_false_iff. lra.
  - intros a b c _ _ _. rewrite !Rlt_bool_iff. lra.
  - intros a b c _ _ _. rewrite !Rlt_bool_false_iff. lra.
  - intros a b _ _. destruct (Rle_bool_spec a b), (Rlt_bool_spec b a); simpl; auto; lra.
Qed.
