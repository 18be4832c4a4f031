(** Numbers.  Python floats and ints are idealised as exact rationals ([Qc], canonical fractions, Leibniz equality);
    rounding, overflow, nan and inf are not modelled. *)
From Coq Require Export QArith.Qcanon QArith.Qabs.
From Coq Require Import Lqa.
From Verif Require Import Base.
Open Scope Qc_scope.

Lemma Qc_eqb_spec (x y : Qc) : reflect (x = y) (Qc_eq_bool x y).
Proof.
  unfold Qc_eq_bool. destruct (Qc_eq_dec x y); constructor; assumption.
Qed.
#[export] Instance EqB_Qc : EqB Qc := {| eqb := Qc_eq_bool; eqb_spec := Qc_eqb_spec |}.

Definition Qcsum (l : list Qc) : Qc := fold_right Qcplus 0 l.
Lemma Qcsum_app l m : Qcsum (l ++ m) = Qcsum l + Qcsum m.
Proof. unfold Qcsum. induction l as [|x l IH]; cbn; [ring|]. rewrite IH. ring. Qed.
Lemma Qcsum_scale c l : Qcsum (map (fun x => c * x) l) = c * Qcsum l.
Proof. unfold Qcsum. induction l as [|x l IH]; cbn; [ring|]. rewrite IH. ring. Qed.
Lemma Qcsum_map_scale {A} c (f : A -> Qc) l : Qcsum (map (fun x => c * f x) l) = c * Qcsum (map f l).
Proof. unfold Qcsum. induction l as [|x l IH]; cbn; [ring|]. rewrite IH. ring. Qed.
Lemma Qcsum_map_add {A} (f g : A -> Qc) l : Qcsum (map (fun x => f x + g x) l) = Qcsum (map f l) + Qcsum (map g l).
Proof. unfold Qcsum. induction l as [|x l IH]; cbn; [ring|]. rewrite IH. ring. Qed.
Lemma Qcsum_cons x l : Qcsum (x :: l) = x + Qcsum l.
Proof. reflexivity. Qed.
Lemma Qcsum_nil : Qcsum [] = 0.
Proof. reflexivity. Qed.
Lemma Qcsum_ext {A} (f g : A -> Qc) l : (forall x, In x l -> f x = g x) -> Qcsum (map f l) = Qcsum (map g l).
Proof. intros H. f_equal. apply map_ext_in. exact H. Qed.
Lemma Qcsum_perm l m : Permutation l m -> Qcsum l = Qcsum m.
Proof. unfold Qcsum. induction 1; cbn; try congruence; ring. Qed.
Lemma Qcsum_zero {A} (f : A -> Qc) l : (forall x, In x l -> f x = 0) -> Qcsum (map f l) = 0.
Proof.
  induction l as [|x l IH]; intros H; [reflexivity|]. cbn [map]. rewrite Qcsum_cons, H, IH; [ring| |cbn; auto].
  intros y I. apply H. cbn; auto.
Qed.
