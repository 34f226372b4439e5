(** Property theorem C69.  Specification: DirectSpec.v (equivalent, nonsingular, history),
    DirectConcSpec.v (lattice_pair, quartic_bound); model: DirectConcrete.v. *)
From Verif Require Import LinAlg GroupModel DirectSpec DirectConcrete DirectConcSpec DirectConcProofs DirectExample DirectGlobal.
Local Open Scope Z_scope.

(** C69: when the search ends within its first pass (the one that starts from the origin),
    the list is optimal among all nonsingular integer matrices. *)
Theorem C69_one_pass_is_global : forall n EA EM LG_A LG_M nsol alpha slice_sz seen st st',
  lattice_pair n EA EM LG_A LG_M -> (1 <= nsol)%nat -> quartic_bound n EA EM alpha -> (1 <= slice_sz)%nat ->
  history n LG_A LG_M (lat_dist EA EM) nsol seen st -> (nsol <= length (fst (fst st)))%nat ->
  direct_search n EA EM LG_A LG_M nsol alpha slice_sz 1 st = Ok st' ->
  forall l, length l = (n * n)%nat -> nonsingular n l ->
    (exists s, In s (fst (fst st')) /\ equivalent n LG_A LG_M l (fst s)) \/
    ((nsol <= length (fst (fst st')))%nat /\ forall s, In s (fst (fst st')) -> (snd s < lat_dist EA EM l)%R).
Proof. exact (fun n EA EM LG_A LG_M nsol alpha slice_sz seen st st' HP Hs => one_pass_optimal n EA EM LG_A LG_M HP nsol Hs alpha slice_sz seen st st'). Qed.
Print Assumptions C69_one_pass_is_global.

(** The same for any run whose processed candidates include a whole ball of the final radius. *)
Theorem C69_whole_ball_is_global : forall n EA EM LG_A LG_M nsol alpha seen st g,
  lattice_pair n EA EM LG_A LG_M -> (1 <= nsol)%nat -> quartic_bound n EA EM alpha ->
  history n LG_A LG_M (lat_dist EA EM) nsol seen st -> (nsol <= length (fst (fst st)))%nat ->
  ball_gen n alpha (snd st) (repeat 0 (n * n)) = Ok g -> incl g seen ->
  forall l, length l = (n * n)%nat -> nonsingular n l ->
    (exists s, In s (fst (fst st)) /\ equivalent n LG_A LG_M l (fst s)) \/
    ((nsol <= length (fst (fst st)))%nat /\ forall s, In s (fst (fst st)) -> (snd s < lat_dist EA EM l)%R).
Proof. exact (fun n EA EM LG_A LG_M nsol alpha seen st g HP Hs => ball_optimal n EA EM LG_A LG_M HP nsol Hs alpha seen st g). Qed.
Print Assumptions C69_whole_ball_is_global.

(** the square lattice against itself, first random draw zero: one pass, the identity *)
Example C69_case : exists seen st st', direct_init 2 (eye 2) (eye 2) SQUARE_EXT_GROUP SQUARE_EXT_GROUP 1 (1 / 10) draws2 = Ok st /\
  history 2 SQUARE_EXT_GROUP SQUARE_EXT_GROUP (lat_dist (eye 2) (eye 2)) 1 seen st /\ (1 <= length (fst (fst st)))%nat /\
  quartic_bound 2 (eye 2) (eye 2) (1 / 2) /\
  direct_search 2 (eye 2) (eye 2) SQUARE_EXT_GROUP SQUARE_EXT_GROUP 1 (1 / 2) 100 1 st = Ok st' /\
  fst (fst st') = [([1; 0; 0; 1], 0%R)].
Proof.
  destruct square_one_pass as (st' & E & F).
  destruct (conc_init 2 _ _ _ _ square_pair 1 (le_n _) (1 / 10) draws2 ltac:(lra) draws2_wf) as [E'|(st & seen & E' & H & L)].
  - rewrite rinit2_ok in E'. discriminate.
  - rewrite rinit2_ok in E'. injection E' as <-. exists seen, rinit2, st'.
    split; [exact rinit2_ok|]. split; [exact H|]. split; [exact L|]. split; [exact square_bound|]. split; [exact E|exact F].
Qed.
