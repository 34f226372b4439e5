(** Totally ordered distances: the models of the search bookkeeping only compare
    distances, so they are written for any total order; reals are the instance the
    code uses, integers are used to run examples. *)
From Verif Require Export RMat.

Class TotalOrder (D : Type) := {
  dle : D -> D -> bool;
  dle_total : forall a b, dle a b = true \/ dle b a = true;
  dle_trans : forall a b c, dle a b = true -> dle b c = true -> dle a c = true;
  dle_antisym : forall a b, dle a b = true -> dle b a = true -> a = b }.

Definition dlt {D} {T : TotalOrder D} (a b : D) : bool := negb (dle b a).

#[global] Instance Z_order : TotalOrder Z.
Proof.
  refine {| dle := Z.leb |}; intros *; rewrite ?Z.leb_le; lia.
Defined.
#[global] Instance R_order : TotalOrder R.
Proof.
  refine {| dle := Rleb |}; intros *; rewrite ?Rleb_spec; lra.
Defined.

Section Facts.
  Context {D : Type} {T : TotalOrder D}.
  Lemma dle_refl a : dle a a = true.
  Proof. destruct (dle_total a a); assumption. Qed.
  Lemma dlt_spec a b : dlt a b = true <-> dle b a = false.
  Proof. unfold dlt. apply negb_true_iff. Qed.
  Lemma dlt_false a b : dlt a b = false <-> dle b a = true.
  Proof. unfold dlt. apply negb_false_iff. Qed.
  Lemma dlt_dle a b : dlt a b = true -> dle a b = true.
  Proof. rewrite dlt_spec. intros H. destruct (dle_total a b) as [E|E]; congruence. Qed.
  Lemma dlt_irrefl a : dlt a a = false.
  Proof. apply dlt_false, dle_refl. Qed.
  Lemma dle_lt_trans a b c : dle a b = true -> dlt b c = true -> dlt a c = true.
  Proof.
    rewrite !dlt_spec. intros H1 H2. destruct (dle c a) eqn:E; [|reflexivity].
    rewrite (dle_trans c a b) in H2; auto.
  Qed.
  Lemma dlt_le_trans a b c : dlt a b = true -> dle b c = true -> dlt a c = true.
  Proof.
    rewrite !dlt_spec. intros H1 H2. destruct (dle c a) eqn:E; [|reflexivity].
    rewrite (dle_trans b c a) in H1; auto.
  Qed.
  Lemma dlt_trans a b c : dlt a b = true -> dlt b c = true -> dlt a c = true.
  Proof. intros H1 H2. eapply dle_lt_trans; [apply dlt_dle; eassumption|assumption]. Qed.
  Lemma dle_cases a b : dle a b = true \/ dlt b a = true.
  Proof. rewrite dlt_spec. destruct (dle a b); auto. Qed.
  Lemma D_eq_dec : forall a b : D, {a = b} + {a <> b}.
  Proof.
    intros a b. destruct (dle a b) eqn:E1; [destruct (dle b a) eqn:E2|].
    - left. now apply dle_antisym.
    - right. intros ->. rewrite dle_refl in E2. discriminate.
    - right. intros ->. rewrite dle_refl in E1. discriminate.
  Qed.
End Facts.
