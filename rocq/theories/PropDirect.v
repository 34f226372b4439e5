(** Property theorems C47, C48, C57.  Specification: DirectSpec.v (best_so_far, history,
    covered), DirectConcSpec.v (lattice_pair, quartic_bound); model: DirectModel.v,
    DirectConcrete.v. *)
From Verif Require Import LinAlg GroupModel ReduceSpec DirectSpec DirectProofs DirectConcrete DirectConcSpec
  DirectConcProofs DirectTransfer DirectExample.
Local Open Scope Z_scope.

(** C47: for every sequence of candidates and batches, the list is the best seen so far. *)
Theorem C47_best_so_far : forall n EA EM LG_A LG_M nsol seen sols ext dmax,
  lattice_pair n EA EM LG_A LG_M -> (1 <= nsol)%nat ->
  history n LG_A LG_M (lat_dist EA EM) nsol seen (sols, ext, dmax) ->
  best_so_far n LG_A LG_M (lat_dist EA EM) nsol seen sols.
Proof.
  exact (fun n EA EM LG_A LG_M nsol seen sols ext dmax HP Hs =>
    let '(conj Hd (conj _ (conj _ (conj _ (conj _ (conj GA (conj GM _))))))) := HP in
    history_best n LG_A LG_M (lat_dist EA EM) nsol Hd GA GM (lat_dist_inv n EA EM LG_A LG_M HP) Hs seen sols ext dmax).
Qed.
Print Assumptions C47_best_so_far.

(** the same for any totally ordered distance that is invariant under the two groups *)
Theorem C47_best_so_far_any_distance : forall D (T : TotalOrder D) n LG_A LG_M (dist : list Z -> D) nsol,
  dim23 n -> matrix_group n LG_A -> matrix_group n LG_M ->
  (forall l l', length l = (n * n)%nat -> length l' = (n * n)%nat ->
     equivalent n LG_A LG_M l l' -> dist l = dist l') ->
  (1 <= nsol)%nat ->
  forall seen sols ext dmax, history n LG_A LG_M dist nsol seen (sols, ext, dmax) ->
  best_so_far n LG_A LG_M dist nsol seen sols.
Proof. exact @history_best. Qed.
Print Assumptions C47_best_so_far_any_distance.

(** and no batch is refused: update_sol never raises once nsol solutions are listed,
    keeps at least nsol, and never raises the bound DMAX *)
Theorem C47_update_never_raises : forall D (T : TotalOrder D) n LG_A LG_M (dist : list Z -> D) nsol,
  dim23 n -> matrix_group n LG_A -> matrix_group n LG_M ->
  (forall l l', length l = (n * n)%nat -> length l' = (n * n)%nat ->
     equivalent n LG_A LG_M l l' -> dist l = dist l') ->
  (1 <= nsol)%nat ->
  forall seen st ls, history n LG_A LG_M dist nsol seen st -> (nsol <= length (fst (fst st)))%nat ->
  Forall (fun l => length l = n * n)%nat ls ->
  exists b st', update_sol n LG_A LG_M dist nsol ls st = Ok (b, st') /\
    history n LG_A LG_M dist nsol (ls ++ seen) st' /\ (nsol <= length (fst (fst st')))%nat /\
    exists d d', snd st = Some d /\ snd st' = Some d' /\ dle d' d = true /\ b = dlt d' d.
Proof.
  intros D T n LG_A LG_M dist nsol Hd GA GM Hi Hs seen st ls HI Hlen Hf.
  destruct (update_sol_ok n LG_A LG_M dist nsol Hd GA GM Hi Hs ls seen st
              (history_inv n LG_A LG_M dist nsol Hd GA GM Hi Hs seen st HI) Hlen Hf)
    as (b & st' & E & _ & L & X).
  exists b, st'. split; [exact E|]. split; [exact (h_batch n LG_A LG_M dist nsol seen st ls b st' HI Hlen Hf E)|]. auto.
Qed.
Print Assumptions C47_update_never_raises.

(** a concrete history: square lattice against itself, 20 random draws *)
Example C47_case : lattice_pair 2 (eye 2) (eye 2) SQUARE_EXT_GROUP SQUARE_EXT_GROUP /\
  fst (fst rinit) = [([1; 1; 0; 1], 3%R)] /\
  exists seen, history 2 SQUARE_EXT_GROUP SQUARE_EXT_GROUP (lat_dist (eye 2) (eye 2)) 1 seen rinit.
Proof.
  split; [exact square_pair|]. split; [reflexivity|].
  destruct (conc_init 2 _ _ _ _ square_pair 1 (le_n _) (1 / 10) draws ltac:(lra) draws_wf) as [E|(st & seen & E & H & _)].
  - rewrite rinit_ok in E. discriminate.
  - rewrite rinit_ok in E. injection E as <-. eauto.
Qed.

(** C48, what holds.  The initialisation never raises (it goes on drawing, or ends with
    at least nsol solutions, all nonsingular candidates drawn being accounted for). *)
Theorem C48_initialisation_partial : forall n EA EM LG_A LG_M nsol vol_th stream,
  lattice_pair n EA EM LG_A LG_M -> (1 <= nsol)%nat -> (vol_th <= 1)%R -> Forall (wf n n) stream ->
  direct_init n EA EM LG_A LG_M nsol vol_th stream = NoFuel \/
  exists st seen, direct_init n EA EM LG_A LG_M nsol vol_th stream = Ok st /\
    history n LG_A LG_M (lat_dist EA EM) nsol seen st /\ (nsol <= length (fst (fst st)))%nat.
Proof. exact (fun n EA EM LG_A LG_M nsol vol_th stream HP Hs => conc_init n EA EM LG_A LG_M HP nsol Hs vol_th stream). Qed.
Print Assumptions C48_initialisation_partial.

(** The search that follows always ends (with any positive lower bound alpha of the
    quartic form), either normally or with StopIteration.  When it ends normally, the
    list is the best among everything it processed, which includes all vectors of the
    last ball. *)
Theorem C48_search_partial : forall n EA EM LG_A LG_M nsol alpha slice_sz seen st,
  lattice_pair n EA EM LG_A LG_M -> (1 <= nsol)%nat -> (1 <= slice_sz)%nat ->
  quartic_bound n EA EM alpha ->
  history n LG_A LG_M (lat_dist EA EM) nsol seen st -> (nsol <= length (fst (fst st)))%nat ->
  exists fuel0, forall fuel, (fuel0 <= fuel)%nat ->
    match direct_search n EA EM LG_A LG_M nsol alpha slice_sz fuel st with
    | Ok st' => exists seen' y g, history n LG_A LG_M (lat_dist EA EM) nsol seen' st' /\ incl seen seen' /\
        ball_gen n alpha (snd st') y = Ok g /\ incl g seen' /\ (nsol <= length (fst (fst st')))%nat
    | Raise e => e = StopIteration
    | NoFuel => False
    end.
Proof.
  exact (fun n EA EM LG_A LG_M nsol alpha slice_sz seen st HP Hn Hs Ha =>
    conc_search n EA EM LG_A LG_M HP nsol Hn alpha slice_sz seen st Ha Hs).
Qed.
Print Assumptions C48_search_partial.
Example C48_case : quartic_bound 2 (eye 2) (eye 2) (1 / 2) /\ Forall (wf 2 2) draws /\
  direct_init 2 (eye 2) (eye 2) SQUARE_EXT_GROUP SQUARE_EXT_GROUP 1 (1 / 10) draws = Ok rinit.
Proof. split; [exact square_bound|]. split; [exact draws_wf|exact rinit_ok]. Qed.

(** C48 is false as stated: for the square lattice against itself, with the defaults
    nsol = 1, vol_th = 0.1, slice_sz = 100 and the true quartic minimum 1/2, there are
    random draws after which the search dies of StopIteration: the first slice exhausts
    the generator, improves the list, and next(g) fails. *)
Theorem C48_refuted : exists stream st,
  lattice_pair 2 (eye 2) (eye 2) SQUARE_EXT_GROUP SQUARE_EXT_GROUP /\
  quartic_bound 2 (eye 2) (eye 2) (1 / 2) /\
  (forall M x, In M stream -> In x (concat M) -> In x [-1; 0; 1]) /\
  direct_init 2 (eye 2) (eye 2) SQUARE_EXT_GROUP SQUARE_EXT_GROUP 1 (1 / 10) stream = Ok st /\
  forall fuel, (1 <= fuel)%nat ->
    direct_search 2 (eye 2) (eye 2) SQUARE_EXT_GROUP SQUARE_EXT_GROUP 1 (1 / 2) 100 fuel st = Raise StopIteration.
Proof.
  exists draws, rinit. split; [exact square_pair|]. split; [exact square_bound|].
  split. { intros M x [<-|HM]; [cbn; tauto|]. apply repeat_spec in HM. subst M. cbn. tauto. }
  split; [exact rinit_ok|].
  intros [|fuel] H; [lia|]. apply square_stops.
Qed.
Print Assumptions C48_refuted.

(** C57, what holds: in each round that is followed by another one, every slice sent to
    a worker is covered (see DirectSpec.covered), and the loop goes on from the next
    vector. *)
Theorem C57_round_partial : forall n EA EM LG_A LG_M nsol alpha slice_sz nb y seen st g ss x rest,
  lattice_pair n EA EM LG_A LG_M -> (1 <= nsol)%nat -> (1 <= slice_sz)%nat -> length y = (n * n)%nat ->
  history n LG_A LG_M (lat_dist EA EM) nsol seen st -> (nsol <= length (fst (fst st)))%nat ->
  ball_gen n alpha (snd st) y = Ok g -> slices slice_sz nb g = (ss, x :: rest) ->
  exists seen' st',
    (forall k, par_loop n LG_A LG_M (lat_dist EA EM) nsol slice_sz (ball_gen n alpha) (S k) nb y st =
               par_loop n LG_A LG_M (lat_dist EA EM) nsol slice_sz (ball_gen n alpha) k nb x st') /\
    history n LG_A LG_M (lat_dist EA EM) nsol seen' st' /\ (nsol <= length (fst (fst st')))%nat /\
    incl seen seen' /\ incl seen' (concat ss ++ seen) /\
    forall a, In a ss -> covered (lat_dist EA EM) seen' (snd st) a.
Proof.
  intros n EA EM LG_A LG_M nsol alpha slice_sz nb y seen st g ss x rest HP Hn Hs Hy HI Hlen Eg Es.
  pose proof HP as (Hd & _ & _ & _ & _ & GA & GM & _).
  apply (par_round n LG_A LG_M (lat_dist EA EM) nsol Hd GA GM (lat_dist_inv n EA EM LG_A LG_M HP) Hn
           slice_sz Hs (ball_gen n alpha) nb y seen st g ss x rest); auto.
  destruct (snd st) as [d|] eqn:E; [|discriminate].
  destruct (ball_gen_total n EA EM LG_A LG_M HP alpha d y Hy) as (g' & E' & F). rewrite E' in Eg.
  injection Eg as <-. exact F.
Qed.
Print Assumptions C57_round_partial.

(** C57 is false as stated: in the same situation as C48_refuted, for every number of
    workers, the parallel search examines 89 vectors, among them the identity (distance
    0), and returns the initial guess (1 1; 0 1) at distance 3: the results of the last
    round are thrown away. *)
Theorem C57_refuted : exists stream st g,
  direct_init 2 (eye 2) (eye 2) SQUARE_EXT_GROUP SQUARE_EXT_GROUP 1 (1 / 10) stream = Ok st /\
  ball_gen 2 (1 / 2) (snd st) [0; 0; 0; 0] = Ok g /\
  In [1; 0; 0; 1] g /\ lat_dist (eye 2) (eye 2) [1; 0; 0; 1] = 0%R /\
  forall nb fuel, (1 <= nb)%nat -> (1 <= fuel)%nat ->
    direct_para 2 (eye 2) (eye 2) SQUARE_EXT_GROUP SQUARE_EXT_GROUP 1 (1 / 2) 100 nb fuel st = Ok st /\
    fst (fst st) = [([1; 1; 0; 1], 3%R)].
Proof.
  exists draws, rinit, zball. split; [exact rinit_ok|]. split; [exact square_ball|].
  split; [apply mem_vec_In; vm_compute; reflexivity|].
  split; [rewrite square_dist by reflexivity; reflexivity|].
  intros nb [|fuel] Hb Hf; [lia|]. split; [now apply square_para|reflexivity].
Qed.
Print Assumptions C57_refuted.

(** the hypotheses of C57_round_partial are met with slices of 10 vectors *)
Example C57_case : exists ss x rest, slices 10 4 zball = (ss, x :: rest) /\ length ss = 4%nat.
Proof. vm_compute. eauto. Qed.
