(** Linear arithmetic over canonical rationals, by way of [lra] over Q. *)
From Coq Require Import Lqa QArith.
From Verif Require Import Num.
Lemma qc_plus (x y : Qc) : (this (x + y)%Qc == this x + this y)%Q. Proof. apply Qred_correct. Qed.
Lemma qc_mult (x y : Qc) : (this (x * y)%Qc == this x * this y)%Q. Proof. apply Qred_correct. Qed.
Lemma qc_opp (x : Qc) : (this (- x)%Qc == - this x)%Q. Proof. apply Qred_correct. Qed.
Lemma qc_minus (x y : Qc) : (this (x - y)%Qc == this x - this y)%Q. Proof. unfold Qcminus. rewrite qc_plus, qc_opp. reflexivity. Qed.
Lemma qc_const (q : Q) : (this (Q2Qc q) == q)%Q. Proof. apply Qred_correct. Qed.
Lemma qc_eq (x y : Qc) : x = y -> (this x == this y)%Q. Proof. intros ->. reflexivity. Qed.
Ltac qc_push H := rewrite ?qc_minus, ?qc_plus, ?qc_mult, ?qc_opp, ?qc_const in H.
Ltac qclra_prep :=
  repeat match goal with
         | H : @eq Qc _ _ |- _ => apply qc_eq in H
         | H : (_ <= _)%Qc |- _ => unfold Qcle in H
         | H : (_ < _)%Qc |- _ => unfold Qclt in H
         | H : ~ (_ <= _)%Qc |- _ => apply Qcnot_le_lt in H
         | H : ~ (_ < _)%Qc |- _ => apply Qcnot_lt_le in H
         end;
  match goal with
  | |- @eq Qc _ _ => apply Qc_is_canon
  | |- (_ <= _)%Qc => unfold Qcle
  | |- (_ < _)%Qc => unfold Qclt
  | |- _ => idtac
  end;
  repeat match goal with
         | H : (_ == _)%Q |- _ => progress qc_push H
         | H : (_ <= _)%Q |- _ => progress qc_push H
         | H : (_ < _)%Q |- _ => progress qc_push H
         end;
  repeat (progress rewrite ?qc_minus, ?qc_plus, ?qc_mult, ?qc_opp, ?qc_const).
Ltac qclra := qclra_prep; lra.
Ltac qcnra := qclra_prep; nra.
