(** The rotations of the cube that map the lattice spanned by a stretch onto itself, and those of a rotated stretch (C105). *)
From Verif Require Import RMat LinAlg GroupSpec GroupModel GroupProofs LatticeModel LatticeSpec LatticeProofs LatticeGroups LatticeLaue MartModel MartSpec.
Local Open Scope R_scope.

Definition nr (x : R) : Prop := Rabs (x - IZR (rint x)) <= 1 / 100000000 + 1 / 100000 * Rabs (IZR (rint x)).
Lemma nr_opp x : nr x -> nr (- x).
Proof.
  unfold nr. rewrite rint_opp, opp_IZR, Rabs_Ropp. intros H. replace (- x - - IZR (rint x)) with (- (x - IZR (rint x))) by ring. now rewrite Rabs_Ropp.
Qed.
Definition near (A : mat R) : Prop := forall i j, (i < 3)%nat -> (j < 3)%nat -> nr (get A i j).
Lemma near_rotate (q : mat Z) A : In q CUBIC_LAUE_GROUP -> wf 3 3 A -> near A -> near (rotate (RZ q) A).
Proof.
  intros Hq WA H. destruct (wf3_inv A WA) as (a & b & c & d & e & f & g & h & k & ->).
  pose proof (H 0%nat 0%nat ltac:(lia) ltac:(lia)) as Ha. pose proof (H 0%nat 1%nat ltac:(lia) ltac:(lia)) as Hb. pose proof (H 0%nat 2%nat ltac:(lia) ltac:(lia)) as Hc.
  pose proof (H 1%nat 0%nat ltac:(lia) ltac:(lia)) as Hd. pose proof (H 1%nat 1%nat ltac:(lia) ltac:(lia)) as He. pose proof (H 1%nat 2%nat ltac:(lia) ltac:(lia)) as Hf.
  pose proof (H 2%nat 0%nat ltac:(lia) ltac:(lia)) as Hg. pose proof (H 2%nat 1%nat ltac:(lia) ltac:(lia)) as Hh. pose proof (H 2%nat 2%nat ltac:(lia) ltac:(lia)) as Hk.
  clear H. cbn in Ha, Hb, Hc, Hd, He, Hf, Hg, Hh, Hk.
  assert (K : forall x y, nr x -> y = x \/ y = - x -> nr y) by (intros x y Hx [->| ->]; auto using nr_opp).
  unfold CUBIC_LAUE_GROUP in Hq. cbn [In] in Hq.
  repeat match type of Hq with _ \/ _ => destruct Hq as [Hq|Hq] end; try contradiction; subst q; intros i j Hi Hj;
  destruct i as [|[|[|?]]], j as [|[|[|?]]]; try lia; unfold rotate, RZ, mmap; cbn;
  first [ apply (K a _ Ha); (left; ring) || (right; ring) | apply (K b _ Hb); (left; ring) || (right; ring) | apply (K c _ Hc); (left; ring) || (right; ring)
        | apply (K d _ Hd); (left; ring) || (right; ring) | apply (K e _ He); (left; ring) || (right; ring) | apply (K f _ Hf); (left; ring) || (right; ring)
        | apply (K g _ Hg); (left; ring) || (right; ring) | apply (K h _ Hh); (left; ring) || (right; ring) | apply (K k _ Hk); (left; ring) || (right; ring) ].
Qed.

