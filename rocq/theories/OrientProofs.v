(** Lemmas for C112: lat_opt reads the symmetry groups through their elements only, and the bases through
    what does not change when a lattice is turned. *)
From Coq Require Import FunctionalExtensionality.
From Verif Require Import HnfModel HnfSpec ReduceModel ReduceProofs LatticeModel LatticeSpec LatticeProofs LatticeLaue GroupModel GroupProofs Eig DistSpec DistProofs DistProofs2.
From Verif Require Import LatCorTree LatCorModel LatCorSpec LatCorProofs LatCorTotal UnitSpec LLLSim UnitProofs.
Local Open Scope R_scope.

Definition same_elements (L L' : list (mat Z)) : Prop := forall M, In M L <-> In M L'.

(** * The groups *)
Section Cong.
  Variables (dim : nat) (dist : mat Z -> R) (LG1 LG2 LG1' LG2' : list (mat Z)) (nsol miniter maxiter : nat).
  Hypothesis S1 : same_elements LG1 LG1'.
  Hypothesis S2 : same_elements LG2 LG2'.
  Lemma ext_same E : same_elements (ext_sols LG1 LG2 E) (ext_sols LG1' LG2' E).
  Proof.
    intros M. unfold ext_sols. rewrite !in_flat_map. split; intros (q & Hq & H); exists q; (split; [now apply S1|]); apply in_map_iff in H; apply in_map_iff; destruct H as (p & Hp & H); exists p; (split; [exact Hp|now apply S2]).
  Qed.
  Lemma mem_same E L L' : same_elements L L' -> mem_mat E L = mem_mat E L'.
  Proof. intros S. apply Bool.eq_true_iff_eq. rewrite !mem_mat_In. apply S. Qed.
  Lemma app_same A A' B B' : same_elements A A' -> same_elements B B' -> same_elements (A ++ B) (A' ++ B').
  Proof. intros HA HB M. rewrite !in_app_iff, (HA M), (HB M). tauto. Qed.
  Definition st_same (s s' : sol_state) : Prop := fst s = fst s' /\ same_elements (snd s) (snd s').
  Lemma update_same E s s' : st_same s s' ->
    fst (update_solutions dist LG1 LG2 nsol E s) = fst (update_solutions dist LG1' LG2' nsol E s') /\
    st_same (snd (update_solutions dist LG1 LG2 nsol E s)) (snd (update_solutions dist LG1' LG2' nsol E s')).
  Proof.
    destruct s as [sols ext], s' as [sols' ext']. intros (H & X). cbn [fst snd] in H, X. subst sols'. unfold update_solutions.
    assert (XE : same_elements (ext ++ ext_sols LG1 LG2 E) (ext' ++ ext_sols LG1' LG2' E)) by (apply app_same; [exact X|apply ext_same]).
    destruct sols as [|a sols]; [repeat split; cbn [fst snd]; apply XE|].
    rewrite (mem_same E ext ext' X). destruct (mem_mat E ext'); [repeat split; cbn [fst snd]; apply X|].
    destruct (insert_sol _ _); [repeat split; cbn [fst snd]; apply XE|]. destruct (_ <? _)%nat; repeat split; cbn [fst snd]; first [apply XE|apply X].
  Qed.
  Definition b_same (b b' : bstate) : Prop :=
    st_same (b_sols b) (b_sols b') /\ b_cache b = b_cache b' /\ b_explored b = b_explored b' /\ b_new b = b_new b' /\ b_upd b = b_upd b'.
  Definition x_same (x x' : (node * bstate + bstate)%type) : Prop :=
    match x, x' with
    | inl (n, b), inl (n', b') => n = n' /\ b_same b b'
    | Datatypes.inr b, Datatypes.inr b' => b_same b b'
    | _, _ => False
    end.
  Definition r_same {A} (P : A -> A -> Prop) (r r' : res A) : Prop :=
    match r, r' with Ok a, Ok a' => P a a' | Raise e, Raise e' => e = e' | NoFuel, NoFuel => True | _, _ => False end.
  Lemma kids_same fuel depth source root : forall is_ b b', b_same b b' ->
    r_same x_same (kids_loop dist LG1 LG2 nsol miniter fuel depth source root is_ b) (kids_loop dist LG1' LG2' nsol miniter fuel depth source root is_ b').
  Proof.
    induction is_ as [|i is_ IH]; intros b b' H; cbn [kids_loop]; [exact H|].
    destruct (np_dot _ _) as [E| |]; cbn [bind r_same]; [|reflexivity|exact I]. pose proof H as (HS & HC & HE & HN & HU). rewrite HE.
    destruct (mem_mat E (b_explored b')); [now apply IH|]. rewrite HC. destruct (update_same E _ _ HS) as (U1 & U2).
    set (u := update_solutions dist LG1 LG2 nsol E (b_sols b)) in *. set (u' := update_solutions dist LG1' LG2' nsol E (b_sols b')) in *.
    destruct (depth <=? miniter)%nat; cbn [b_sols b_cache b_explored b_new b_upd].
    - destruct (dfs _ _ _ _) as [[ns c]| |]; cbn [bind r_same]; [|reflexivity|exact I].
      destruct (Rltb _ _); cbn [r_same x_same].
      + split; [reflexivity|]. repeat split; cbn [b_sols b_cache b_explored b_new b_upd]; try apply HS; congruence.
      + fold u u'. destruct u as [f s], u' as [f' s']. cbn [fst snd] in U1, U2. apply IH. repeat split; cbn [b_sols b_cache b_explored b_new b_upd]; try apply U2; congruence.
    - fold u u'. destruct u as [f s], u' as [f' s']. cbn [fst snd] in U1, U2. apply IH. repeat split; cbn [b_sols b_cache b_explored b_new b_upd]; try apply U2; congruence.
  Qed.
  Lemma roots_same fuel depth source : forall roots b b', b_same b b' ->
    r_same x_same (roots_loop dim dist LG1 LG2 nsol miniter fuel depth source roots b) (roots_loop dim dist LG1' LG2' nsol miniter fuel depth source roots b').
  Proof.
    induction roots as [|r roots IH]; intros b b' H; cbn [roots_loop]; [exact H|].
    pose proof (kids_same fuel depth source r (child_indices dim (parent r) (grandpa r)) b b' H) as K.
    destruct (kids_loop _ _ _ _ _ _ _ _ _ _ b) as [x| |], (kids_loop _ _ _ _ _ _ _ _ _ _ b') as [x'| |]; cbn [r_same] in K; try contradiction; cbn [bind]; auto.
    destruct x as [[n c]|c], x' as [[n' c']|c']; cbn [x_same] in K; try contradiction; [exact K|now apply IH].
  Qed.
  Definition l_same (x x' : option node * bstate) : Prop := fst x = fst x' /\ b_same (snd x) (snd x').
  Lemma levels_same fuel source : forall k depth roots b b', b_same b b' ->
    r_same l_same (levels dim dist LG1 LG2 nsol miniter maxiter k fuel depth source roots b) (levels dim dist LG1' LG2' nsol miniter maxiter k fuel depth source roots b').
  Proof.
    induction k as [|k IH]; intros depth roots b b' H; cbn [levels]; pose proof H as (HS & HC & HE & HN & HU); rewrite HU.
    - destruct (_ || _)%bool; cbn [r_same]; [exact I|now split].
    - destruct (_ || _)%bool; [|now split]. rewrite HC, HE.
      assert (H0 : b_same (BState (b_sols b) (b_cache b') (b_explored b') [] false) (BState (b_sols b') (b_cache b') (b_explored b') [] false)) by (repeat split; apply HS).
      pose proof (roots_same fuel (S depth) source roots _ _ H0) as K.
      destruct (roots_loop _ _ _ _ _ _ _ _ _ _ (BState (b_sols b) _ _ _ _)) as [x| |], (roots_loop _ _ _ _ _ _ _ _ _ _ (BState (b_sols b') _ _ _ _)) as [x'| |]; cbn [r_same] in K; try contradiction; cbn [bind]; auto.
      destruct x as [[n c]|c], x' as [[n' c']|c']; cbn [x_same] in K; try contradiction.
      + destruct K as (-> & K). now split.
      + replace (b_new c) with (b_new c') by (symmetry; apply K). now apply IH.
  Qed.
  Lemma restarts_same fuel : forall k start s s' c, st_same s s' ->
    r_same st_same (restarts dim dist LG1 LG2 nsol miniter maxiter k fuel start s c) (restarts dim dist LG1' LG2' nsol miniter maxiter k fuel start s' c).
  Proof.
    induction k as [|k IH]; intros start s s' c H; cbn [restarts]; [exact I|].
    destruct (dfs _ _ _ _) as [[m c']| |]; cbn [bind r_same]; [|reflexivity|exact I]. unfold bfs.
    destruct (update_same (elem m) _ _ H) as (_ & U2).
    destruct (update_solutions dist LG1 LG2 nsol (elem m) s) as [f t]. destruct (update_solutions dist LG1' LG2' nsol (elem m) s') as [f' t']. cbn [snd] in U2.
    assert (H0 : b_same (BState t c' [elem m] [] true) (BState t' c' [elem m] [] true)) by (repeat split; apply U2).
    pose proof (levels_same fuel m (max miniter maxiter) 0 [m] _ _ H0) as K.
    destruct (levels _ _ _ _ _ _ _ _ _ _ _ _ (BState t _ _ _ _)) as [[o b]| |], (levels _ _ _ _ _ _ _ _ _ _ _ _ (BState t' _ _ _ _)) as [[o' b']| |]; cbn [r_same] in K; try contradiction; cbn [bind]; auto.
    destruct K as (K1 & K2). cbn [fst snd] in K1, K2. subst o'. destruct K2 as (KS & KC & _). destruct o as [ns|]; [|exact KS]. rewrite KC. now apply IH.
  Qed.
  Lemma core_same k fuel lo : lat_opt_core dim dist LG1 LG2 nsol miniter maxiter k fuel lo = lat_opt_core dim dist LG1' LG2' nsol miniter maxiter k fuel lo.
  Proof.
    unfold lat_opt_core. assert (H : st_same ([], []) ([], [])) by (split; [reflexivity|intros M; tauto]).
    pose proof (restarts_same fuel k (Node lo None None) _ _ (Some 0%Z, []) H) as K.
    destruct (restarts _ _ _ _ _ _ _ _ _ _ _ _) as [s| |], (restarts _ _ LG1' _ _ _ _ _ _ _ _ _) as [s'| |]; cbn [r_same] in K; try contradiction; cbn [bind]; [|now subst|reflexivity].
    now destruct K as (-> & _).
  Qed.
End Cong.

(** * The distances *)
Lemma orth_similarity n Q : dim23 n -> orthogonal n Q -> similarity n 1 Q.
Proof.
  intros d HQ. pose proof (dim23_pos n d) as Hn. destruct (orth_tr n Q d HQ) as (W & H). rewrite (tr_tr n n) in H by (try exact Hn; apply HQ). split; [apply HQ|]. split; [lra|].
  rewrite H. apply (mat_ext n n); [apply wf_eye|apply wf_mscale; [exact Hn|apply wf_eye]|]. intros i j Hi Hj. rewrite (get_mscale n n 1) by (first [exact Hn|exact Hi|exact Hj|apply wf_eye]). cbn [mul R_ops]. ring.
Qed.
Lemma Finv_turn Q1 Q2 E1 L E2 : orthogonal 3 Q1 -> orthogonal 3 Q2 -> wf 3 3 E1 -> wf 3 3 L -> wf 3 3 E2 -> det E2 <> 0 ->
  let F' := Finv_of (mmul Q1 E1) L (minv (mmul Q2 E2)) in let F := Finv_of E1 L (minv E2) in
  mmul F' (tr F') = mmul (mmul Q1 (mmul F (tr F))) (tr Q1).
Proof.
  intros O1 O2 W1 WL W2 D. assert (d : dim23 3) by (now right). destruct (orth_inv 3 Q2 d O2) as (EI & DQ). pose proof (proj1 O1) as WQ1. pose proof (proj1 O2) as WQ2.
  assert (WI : wf 3 3 (minv E2)) by (now apply wf_minv). cbv zeta.
  rewrite (minv_mmul 3) by auto. rewrite EI. assert (T2 : wf 3 3 (tr Q2)) by (apply wf_tr'; auto; lia).
  pose proof (wf_Finv 3 E1 L (minv E2) ltac:(lia) W1 WL WI) as WF.
  assert (EF : Finv_of (mmul Q1 E1) L (mmul (minv E2) (tr Q2)) = mmul (mmul Q1 (Finv_of E1 L (minv E2))) (tr Q2)).
  { unfold Finv_of. assert (wf 3 3 (mmul E1 L)) by (apply (wf_mmul 3 3 3); auto; lia). rewrite (mmul_assoc 3 3 3 3 Q1) by (auto; lia).
    rewrite <- (mmul_assoc 3 3 3 3 _ (minv E2)) by (auto; try lia; apply (wf_mmul 3 3 3); auto; lia). f_equal. rewrite (mmul_assoc 3 3 3 3) by (auto; lia). reflexivity. }
  rewrite EF. set (F := Finv_of E1 L (minv E2)) in *. assert (TF : wf 3 3 (tr F)) by (apply wf_tr'; auto; lia). assert (T1 : wf 3 3 (tr Q1)) by (apply wf_tr'; auto; lia).
  assert (WQF : wf 3 3 (mmul Q1 F)) by (apply (wf_mmul 3 3 3); auto; lia).
  rewrite (tr_mmul 3 3 3), (tr_tr 3 3), (tr_mmul 3 3 3) by (auto; lia). assert (WTT : wf 3 3 (mmul (tr F) (tr Q1))) by (apply (wf_mmul 3 3 3); auto; lia).
  rewrite (mmul_assoc 3 3 3 3 (mmul Q1 F)) by (auto; try lia; apply (wf_mmul 3 3 3); auto; lia).
  rewrite <- (mmul_assoc 3 3 3 3 (tr Q2)) by (auto; lia). destruct (orth_tr 3 Q2 d O2) as (_ & HT). rewrite (tr_tr 3 3) in HT by (auto; lia). rewrite HT, (mmul_eye_l 3 3) by (auto; lia).
  rewrite (mmul_assoc 3 3 3 3 Q1 F) by (auto; lia). rewrite <- (mmul_assoc 3 3 3 3 F) by (auto; lia). rewrite <- (mmul_assoc 3 3 3 3 Q1) by (auto; try lia; apply (wf_mmul 3 3 3); auto; lia). reflexivity.
Qed.
Lemma Cauchy_turn x Q1 Q2 E1 E2 : orthogonal 3 Q1 -> orthogonal 3 Q2 -> wf 3 3 E1 -> wf 3 3 E2 -> det E2 <> 0 ->
  Cauchy_dist x (mmul Q1 E1) (minv (mmul Q2 E2)) = Cauchy_dist x E1 (minv E2).
Proof.
  intros O1 O2 W1 W2 D. assert (d : dim23 3) by (now right). pose proof (proj1 O1) as WQ1. pose proof (proj1 O2) as WQ2.
  assert (W1' : wf 3 3 (mmul Q1 E1)) by (apply (wf_mmul 3 3 3); auto; lia). assert (W2' : wf 3 3 (mmul Q2 E2)) by (apply (wf_mmul 3 3 3); auto; lia).
  assert (WI : wf 3 3 (minv E2)) by (now apply wf_minv). assert (WI' : wf 3 3 (minv (mmul Q2 E2))) by (now apply wf_minv).
  rewrite !(Cauchy_fro 3) by (auto; lia). cbv zeta. rewrite (Finv_turn Q1 Q2 E1 (reshape 3 x) E2 O1 O2 W1 (wf_reshape 3 x) W2 D).
  pose proof (wf_Finv 3 E1 (reshape 3 x) (minv E2) ltac:(lia) W1 (wf_reshape 3 x) WI) as WF. set (F := Finv_of E1 (reshape 3 x) (minv E2)) in *.
  assert (WC : wf 3 3 (mmul F (tr F))) by (apply (wf_mmul 3 3 3); auto using wf_tr'; try lia; apply wf_tr'; auto; lia). rewrite msub_conj by auto.
  assert (WS : wf 3 3 (msub (mmul F (tr F)) (eye 3))) by (apply wf_msub; auto; lia).
  rewrite fro2_orth_r, fro2_orth_l; auto using orth_tr. apply (wf_mmul 3 3 3); auto; lia.
Qed.
(** what is assumed of la.eig(C)[0] for the distance 'strain' *)
Definition right_eigenvalues (eigvals : mat R -> list R) : Prop := forall C, wf 3 3 C -> tr C = C -> exists V, eigen 3 C (eigvals C) V.
Lemma strain_turn eigvals x Q1 Q2 E1 E2 : right_eigenvalues eigvals -> orthogonal 3 Q1 -> orthogonal 3 Q2 -> wf 3 3 E1 -> wf 3 3 E2 -> det E2 <> 0 ->
  strain_dist (eigvals (strain_Cinv x (mmul Q1 E1) (minv (mmul Q2 E2)))) = strain_dist (eigvals (strain_Cinv x E1 (minv E2))).
Proof.
  intros RE O1 O2 W1 W2 D. assert (d : dim23 3) by (now right). pose proof (proj1 O1) as WQ1. pose proof (proj1 O2) as WQ2.
  assert (W1' : wf 3 3 (mmul Q1 E1)) by (apply (wf_mmul 3 3 3); auto; lia). assert (WI : wf 3 3 (minv E2)) by (now apply wf_minv).
  rewrite !(strain_Cinv_F 3) by auto. cbv zeta. rewrite (Finv_turn Q1 Q2 E1 (reshape 3 x) E2 O1 O2 W1 (wf_reshape 3 x) W2 D).
  pose proof (wf_Finv 3 E1 (reshape 3 x) (minv E2) ltac:(lia) W1 (wf_reshape 3 x) WI) as WF. set (F := Finv_of E1 (reshape 3 x) (minv E2)) in *.
  assert (TF : wf 3 3 (tr F)) by (apply wf_tr'; auto; lia). assert (WC : wf 3 3 (mmul F (tr F))) by (apply (wf_mmul 3 3 3); auto; lia).
  assert (SC : tr (mmul F (tr F)) = mmul F (tr F)) by (rewrite (tr_mmul 3 3 3), (tr_tr 3 3) by (auto; lia); reflexivity). set (C := mmul F (tr F)) in *.
  assert (T1 : wf 3 3 (tr Q1)) by (apply wf_tr'; auto; lia). assert (WQC : wf 3 3 (mmul Q1 C)) by (apply (wf_mmul 3 3 3); auto; lia).
  assert (SC' : tr (mmul (mmul Q1 C) (tr Q1)) = mmul (mmul Q1 C) (tr Q1)).
  { rewrite (tr_mmul 3 3 3), (tr_tr 3 3), (tr_mmul 3 3 3), SC by (auto; lia). rewrite (mmul_assoc 3 3 3 3) by (auto; lia). reflexivity. }
  destruct (RE C WC SC) as (V & H). destruct (RE (mmul (mmul Q1 C) (tr Q1)) ltac:(apply (wf_mmul 3 3 3); auto; lia) SC') as (V' & H').
  destruct (orth_inv 3 Q1 d O1) as (EI & DQ). pose proof (eigen_conj 3 C _ V Q1 d WQ1 DQ H) as H2. rewrite EI in H2. pose proof (eigen_perm 3 _ _ _ _ _ d H2 H') as P.
  unfold strain_dist. rewrite (vsum_perm _ _ P). rewrite (vsum_perm (map sqrt (eigvals C)) (map sqrt (eigvals (mmul (mmul Q1 C) (tr Q1))))) by (now apply Permutation_map). reflexivity.
Qed.
Lemma gram_turn (Q E : mat R) : orthogonal 3 Q -> wf 3 3 E -> mmul (tr (mmul Q E)) (mmul Q E) = mmul (tr E) E.
Proof.
  intros O W. assert (d : dim23 3) by (now right). pose proof (proj1 O) as WQ. assert (TQ : wf 3 3 (tr Q)) by (apply wf_tr'; auto; lia). assert (TE : wf 3 3 (tr E)) by (apply wf_tr'; auto; lia).
  rewrite (tr_mmul 3 3 3) by (auto; lia). rewrite (mmul_assoc 3 3 3 3) by (auto; try lia; apply (wf_mmul 3 3 3); auto; lia). rewrite <- (mmul_assoc 3 3 3 3 (tr Q)) by (auto; lia).
  destruct (orth_tr 3 Q d O) as (_ & HT). rewrite (tr_tr 3 3) in HT by (auto; lia). rewrite HT, (mmul_eye_l 3 3) by (auto; lia). reflexivity.
Qed.
Lemma distance_turn eigvals name Q1 Q2 E1 E2 : (name = Strain -> right_eigenvalues eigvals) -> orthogonal 3 Q1 -> orthogonal 3 Q2 -> wf 3 3 E1 -> wf 3 3 E2 -> det E2 <> 0 ->
  distance_fn eigvals name (mmul Q1 E1) (mmul Q2 E2) = distance_fn eigvals name E1 E2.
Proof.
  intros RE O1 O2 W1 W2 D. assert (d : dim23 3) by (now right). pose proof (proj1 O1) as WQ1. pose proof (proj1 O2) as WQ2.
  assert (W1' : wf 3 3 (mmul Q1 E1)) by (apply (wf_mmul 3 3 3); auto; lia). assert (W2' : wf 3 3 (mmul Q2 E2)) by (apply (wf_mmul 3 3 3); auto; lia).
  destruct (orth_inv 3 Q2 d O2) as (_ & DQ). assert (I1 : inv E2 = Ok (minv E2)) by (unfold inv; now rewrite (proj2 (Reqb_false _ _) D)).
  assert (I2 : inv (mmul Q2 E2) = Ok (minv (mmul Q2 E2))). { unfold inv. rewrite (proj2 (Reqb_false _ _)); [reflexivity|]. rewrite (det_mmul 3) by auto. now apply Rmult_integral_contrapositive_currified. }
  destruct name; cbn [distance_fn]; [| | |reflexivity].
  - rewrite I1, I2. cbn [bind]. do 2 f_equal. apply functional_extensionality. intros x. now apply Cauchy_turn.
  - assert (EE : forall x, Eric_dist x (mmul Q1 E1) (mmul Q2 E2) = Eric_dist x E1 E2).
    { intros x. unfold Eric_dist. rewrite (len3 _ W1), (len3 _ W1'). now rewrite (gram_turn Q1 E1 O1 W1), (gram_turn Q2 E2 O2 W2). }
    rewrite (len3 _ W1), (len3 _ W1'), EE. destruct (Eric_dist _ E1 E2); cbn [bind]; [|reflexivity|reflexivity]. do 2 f_equal. apply functional_extensionality. intros x. now rewrite EE.
  - rewrite I1, I2. cbn [bind]. do 2 f_equal. apply functional_extensionality. intros x. apply strain_turn; auto.
Qed.

(** * lat_opt *)
Lemma turn_base Q E : orthogonal 3 Q -> base 3 E -> base 3 (mmul Q E).
Proof.
  intros O (d & W & D). split; [exact d|]. split; [apply (wf_mmul 3 3 3); auto; try lia; apply O|]. destruct (orth_inv 3 Q d O) as (_ & DQ). rewrite (det_mmul 3) by (auto; apply O). now apply Rmult_integral_contrapositive_currified.
Qed.
Lemma new_lattice_base n E : base n E -> new_lattice E = Ok E.
Proof.
  intros (d & W & D). unfold new_lattice. rewrite (wf_square n) by (auto using dim23_pos). rewrite (proj2 (Rleb_false _ _)); [reflexivity|]. nra.
Qed.
Lemma lat_opt_turn eigvals o k f Q1 Q2 E1 E2 L1 L1' L2 L2' : (o_dist o = Strain -> right_eigenvalues eigvals) -> orthogonal 3 Q1 -> orthogonal 3 Q2 -> base 3 E1 -> base 3 E2 ->
  special_lattice_group E1 = Ok L1 -> special_lattice_group (mmul Q1 E1) = Ok L1' -> same_elements L1' L1 ->
  (o_SOLG2 o = None -> special_lattice_group E2 = Ok L2 /\ special_lattice_group (mmul Q2 E2) = Ok L2' /\ same_elements L2' L2) ->
  lat_opt eigvals o k f (mmul Q1 E1) (mmul Q2 E2) = lat_opt eigvals o k f E1 E2.
Proof.
  intros RE O1 O2 B1 B2 G1 G1' S1 H2. assert (d : dim23 3) by (now right). pose proof (turn_base _ _ O1 B1) as B1'. pose proof (turn_base _ _ O2 B2) as B2'.
  unfold lat_opt. rewrite (len3 _ (proj1 (proj2 B1))), (len3 _ (proj1 (proj2 B1'))). destruct (orth_similarity 3 Q1 d O1) as (WS & KS & SS). rewrite (start_T 3 Q1 1 d WS KS SS E1 B1).
  rewrite (distance_turn eigvals (o_dist o) Q1 Q2 E1 E2 RE O1 O2 (proj1 (proj2 B1)) (proj1 (proj2 B2)) (proj2 (proj2 B2))).
  destruct (start_point E1) as [lo| |]; cbn [bind]; [|reflexivity|reflexivity]. destruct (distance_fn _ _ _ _) as [dd| |]; cbn [bind]; [|reflexivity|reflexivity].
  rewrite (new_lattice_base 3 _ B1), (new_lattice_base 3 _ B1'). cbn [bind]. rewrite G1, G1'. cbn [bind].
  destruct (o_SOLG2 o) as [g|]; cbn [bind].
  - destruct dd as [dd|]; [|reflexivity]. apply core_same; [exact S1|intros M; tauto].
  - destruct (H2 eq_refl) as (G2 & G2' & S2). rewrite (new_lattice_base 3 _ B2), (new_lattice_base 3 _ B2'). cbn [bind]. rewrite G2, G2'. cbn [bind]. destruct dd as [dd|]; [|reflexivity]. now apply core_same.
Qed.
