(** Property C83, the refutation: without the condition that the tolerances resolve the symmetries of the lattices, the
    distance in the list need not be the distance of the correspondence beside it.
    Specification: DirectCorSpec.v (cauchy_distance, genuine_direct); model: DirectCorModel.v; the run: DirectCorTol.v. *)
From Coq Require Import Lra Lia.
From Verif Require Import LinAlg Eig RMat GroupModel GroupProofs LatticeModel LatticeProofs BravaisModel BravaisSpec DistModel DirectConcrete DirectConcSpec DirectGlobal
  OutputModel PropOutput DirectCorModel DirectCorSpec DirectCorProofs DirectCorCase DirectCorMiss PropLattice DirectCorTol.
Local Open Scope R_scope.

(** The rectangular lattice with edges 1 and t = 1000001/1000000 against itself, nsol = 1, with a minimiser that meets its
    contract, sets in some order and matrices drawn for the start: the list returned is [(0, o)] where o carries the quarter
    turn, whose Cauchy distance is (1/t^2 - 1)^2 + (t^2 - 1)^2, not 0. *)
Theorem C83_refuted : forall eig, eig_correct 2 eig -> let t := 1000001 / 1000000 in exists w q A alpha o,
  w_eig w = eig /\ d_dim q = 2%Z /\ d_nsol q = 1%nat /\ d_vol_th q = 1 / 10 /\ Forall (wf 2 2) (w_shifts w) /\
  (forall l e, In e (w_order w l) <-> In e l) /\
  bravais_type 2 2 = Some (Rectangular, P) /\ admissible Rectangular [1; t] (mk_cell 1 t 0 0 0 90) /\
  new_bravais 2 [1; t] 2 = Ok A /\ b_base A = [[1; 0]; [0; t]] /\
  quart_min w 4 (quartic_D 2 (b_base A) (minv (b_base A))) = Ok (Some alpha) /\ quartic_bound 2 (b_base A) (b_base A) alpha /\
  (forall fuel, lat_cor_direct w q (S fuel) 2 [1; t] 2 [1; t] = Ok [(0, o)]) /\
  o_l o = [[0; -1]; [1; 0]]%Z /\
  cauchy_distance 2 (b_base A) (b_base A) (o_l o) ((1 / (t * t) - 1) * (1 / (t * t) - 1) + (t * t - 1) * (t * t - 1)) /\
  ~ cauchy_distance 2 (b_base A) (b_base A) (o_l o) 0 /\
  forall BA BM cor U lams, ~ genuine_direct 2 (b_base A) (b_base A) BA BM 0 (o_l o) cor U lams.
Proof.
  intros eig He t. destruct bravais_t as (A & NA & EA). destruct (tol_run eig He) as (o & Ho & Hrun).
  exists (tol_world eig), (sq_request Cauchy), A, tal, o.
  assert (U : forall X, wf 2 2 X -> mmul X Et = mmul Et (RZ Q90) -> X = [[0; - (1 / t)]; [t; 0]]).
  { intros X WX HX. destruct (wf2_inv _ WX) as (a & b & c & d & ->). unfold t, Et, tt_, Q90 in *. cbn in HX.
    injection HX as H1 H2 H3 H4. mat_eq ltac:(lra). }
  assert (V : fro2 2 2 (msub (mmul [[0; - (1 / t)]; [t; 0]] (tr [[0; - (1 / t)]; [t; 0]])) (eye 2)) =
              (1 / (t * t) - 1) * (1 / (t * t) - 1) + (t * t - 1) * (t * t - 1)).
  { unfold fro2, t. cbn. field. }
  assert (N0 : ~ cauchy_distance 2 Et Et Q90 0).
  { intros (X & WX & HX & H). rewrite (U X WX HX), V in H. unfold t in H. lra. }
  rewrite EA, Ho. change [[0; -1]; [1; 0]]%Z with Q90.
  repeat match goal with |- _ /\ _ => split end; auto.
  - exact draws2_wf.
  - exact zero_first_perm.
  - apply (adm_rect 1 t); unfold t; lra.
  - exact (quart_t eig).
  - exact bound_t.
  - exists [[0; - (1 / t)]; [t; 0]]. split; [apply (wfM2 0 (- (1 / t)) t 0)|split; [unfold t, Et, tt_, Q90, RZ, mmap; mat_eq ltac:(lra)|now rewrite V]].
  - intros BA BM cor UU lams [_ (F & Finv & WF & WI & E1 & E2 & HF & _ & _ & _ & _ & HD) _]. apply N0.
    assert (WL : wf 2 2 (mmul Et (RZ Q90))) by (apply (wf_mmul 2 2 2); try apply base_t; try apply wf_RZ, wfZ2; lia).
    exists Finv. split; [exact WI|split; [|exact HD]]. rewrite <- HF at 1. rewrite <- (mmul_assoc 2 2 2 2), E2 by (try lia; auto). apply (mmul_eye_l 2 2); [exact WL|lia].
Qed.
Print Assumptions C83_refuted.
