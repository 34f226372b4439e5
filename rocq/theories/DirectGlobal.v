(** Global optimality after one complete pass (C69). *)
From Verif Require Import LinAlg GroupModel DistSpec DistProofs VecGenModel VecGenSpec VecGenProofs VecGenTotal
  DirectSpec DirectProofs DirectConcrete DirectConcSpec DirectConcProofs DirectTransfer DirectExample.
Local Open Scope Z_scope.

Section Global.
  Variable n : nat.
  Variables EA EM : mat R.
  Variables LG_A LG_M : list (mat Z).
  Hypothesis HP : lattice_pair n EA EM LG_A LG_M.
  Let Hd : dim23 n := proj1 HP.
  Variable nsol : nat.
  Hypothesis Hnsol : (1 <= nsol)%nat.
  Notation dist := (lat_dist EA EM).
  Notation hist := (history n LG_A LG_M dist nsol).

  Definition optimal (sols : list (list Z * R)) : Prop :=
    forall l, length l = (n * n)%nat -> nonsingular n l ->
      (exists s, In s sols /\ equivalent n LG_A LG_M l (fst s)) \/
      ((nsol <= length sols)%nat /\ forall s, In s sols -> (snd s < dist l)%R).

  (** all vectors of the ball processed: nothing outside it can be better *)
  Lemma ball_optimal alpha seen st g : quartic_bound n EA EM alpha -> hist seen st -> (nsol <= length (fst (fst st)))%nat ->
    ball_gen n alpha (snd st) (repeat 0 (n * n)) = Ok g -> incl g seen -> optimal (fst (fst st)).
  Proof.
    pose proof HP as (_ & WA & WM & DA & DM & GA & GM & IA & IM). intros [Pa Ba] HI Hlen Eg Hincl l Hl Hns.
    pose proof (lat_dist_inv n EA EM LG_A LG_M HP) as Hinv.
    destruct (hist_dmax n LG_A LG_M dist nsol Hd GA GM Hinv Hnsol 1 (le_n 1) seen st HI Hlen) as (d & l0 & Ed & _ & _).
    destruct (Rle_lt_dec (dist l) d) as [Hle|Hgt].
    - assert (Hin : In l g).
      { destruct (gen_fresh (rmax alpha d) (n * n)) as (S & _ & ES & _ & HS); [apply sqrt_pos|destruct Hd; subst; lia|].
        rewrite Ed in Eg. unfold ball_gen in Eg. rewrite ES in Eg. injection Eg as <-. apply HS. split; [exact Hl|].
        rewrite <- len2_IZR. assert (n <= 3)%nat by (destruct Hd; lia). assert (0 < n)%nat by (destruct Hd; lia).
        apply (radius_sound n EA (minv EM)); auto; [now apply wf_minv|now rewrite map_length]. }
      destruct st as [[sols ext] dm].
      pose proof (history_best n LG_A LG_M dist nsol Hd GA GM Hinv Hnsol seen sols ext dm HI) as (_ & _ & _ & _ & B).
      destruct (B l (Hincl l Hin) Hns) as [H|[H1 H2]]; [now left|right]. split; [exact H1|].
      intros s Hs. specialize (H2 s Hs). apply dlt_spec in H2. now apply Rleb_false.
    - right. split; [exact Hlen|]. intros s Hs.
      destruct st as [[sols ext] dm]. cbn in *. destruct (history_inv n LG_A LG_M dist nsol Hd GA GM Hinv Hnsol _ _ HI) as (HC & HT & HD).
      subst dm. destruct HD as (l' & x & E & ->).
      pose proof (history_best n LG_A LG_M dist nsol Hd GA GM Hinv Hnsol seen sols ext _ HI) as (B1 & _).
      assert (snd s <= snd x)%R; [|lra]. subst sols. apply in_app_or in Hs. destruct Hs as [Hs|[<-|[]]]; [|lra].
      apply In_nth_error in Hs. destruct Hs as [i Hi]. pose proof (proj1 (nth_error_Some l' i) ltac:(congruence)).
      apply Rleb_spec. apply (B1 i (length l') s x); [lia|now rewrite nth_error_app1|].
      rewrite nth_error_app2, Nat.sub_diag by lia. reflexivity.
  Qed.

  (** the search whose first pass completes without improving its bound *)
  Lemma one_pass_optimal alpha slice_sz seen st st' : quartic_bound n EA EM alpha -> (1 <= slice_sz)%nat ->
    hist seen st -> (nsol <= length (fst (fst st)))%nat ->
    direct_search n EA EM LG_A LG_M nsol alpha slice_sz 1 st = Ok st' -> optimal (fst (fst st')).
  Proof.
    pose proof HP as (_ & WA & WM & DA & DM & GA & GM & IA & IM). intros Ha Hs HI Hlen E.
    pose proof (lat_dist_inv n EA EM LG_A LG_M HP) as Hinv.
    unfold direct_search, search in E. cbn [DirectModel.outer] in E.
    destruct (ball_gen n alpha (snd st) (repeat 0 (n * n))) as [g|e|] eqn:Eg; try discriminate. cbn [bind] in E.
    assert (Hg : Forall (fun l => length l = n * n)%nat g).
    { destruct (snd st) as [d|] eqn:Ed; [|discriminate]. 
      destruct (ball_gen_total n EA EM LG_A LG_M HP alpha d (repeat 0 (n * n)) (repeat_length _ _)) as (g' & Eg' & Hg').
      congruence. }
    destruct (inner_ok n LG_A LG_M dist nsol Hd GA GM Hinv Hnsol slice_sz Hs (length g) g seen st (le_n _) HI Hlen Hg)
      as [(s1 & seen' & E1 & H1 & H2 & H3 & H4)|[(s1 & x & seen' & d & d' & E1 & _)|(s1 & seen' & d & d' & E1 & _)]];
      rewrite E1 in E; cbn [bind] in E; try discriminate.
    injection E as <-. rewrite <- H3 in Eg. apply (ball_optimal alpha seen' s1 g); auto. intros l Hl. apply H4. now left.
  Qed.
End Global.

(** the square lattice against itself, first draw the identity *)
Definition draws2 : list (mat Z) := [[0; 0]; [0; 0]] :: repeat [[1; 1]; [1; 0]] 19.
Lemma draws2_wf : Forall (wf 2 2) draws2.
Proof. apply Forall_forall. intros M HM. apply wfb_spec. revert M HM. apply forallb_forall. reflexivity. Qed.
Definition zinit2 : @state Z := Eval vm_compute in
  match init_search 2 SQUARE_EXT_GROUP SQUARE_EXT_GROUP zdist 1 (Z.eqb 1) (eye 2) draws2 with
  | Ok st => st | _ => ([], [], None) end.
Lemma zinit2_ok : init_search 2 SQUARE_EXT_GROUP SQUARE_EXT_GROUP zdist 1 (Z.eqb 1) (eye 2) draws2 = Ok zinit2.
Proof. vm_compute. reflexivity. Qed.
Definition rinit2 : @state R := fst_ IZR zinit2.
Lemma rinit2_ok : direct_init 2 (eye 2) (eye 2) SQUARE_EXT_GROUP SQUARE_EXT_GROUP 1 (1 / 10) draws2 = Ok rinit2.
Proof.
  unfold direct_init, init_search. rewrite square_guess, vol_ok_tenth.
  change ([], [], None) with (fst_ IZR ([], [], None)) at 1.
  rewrite (init_loop_f IZR IZR_order 2 SQUARE_EXT_GROUP SQUARE_EXT_GROUP zdist _ square_dist 1 (Z.eqb 1) (eye 2)
             ltac:(lia) (wf_eye 2) _ _ _ draws2_wf).
  pose proof zinit2_ok as E. unfold init_search in E. rewrite E. reflexivity.
Qed.
Definition zball2 : list (list Z) := Eval vm_compute in
  match vec_generator_sq 2 4 (Some [0; 0; 0; 0]) with Ok l => l | _ => [] end.
Lemma square_ball2 : ball_gen 2 (1 / 2) (snd rinit2) (repeat 0 4) = Ok zball2.
Proof.
  cbn [rinit2 fst_ zinit2 snd option_map ball_gen].
  assert (E : (rmax (1 / 2) 0 * rmax (1 / 2) 0 = sqrt 6)%R).
  { unfold rmax. rewrite sqrt_sqrt by apply sqrt_pos. f_equal. unfold gamma. rewrite Rmult_0_r, sqrt_0 || idtac.
    replace (3 * 0)%R with 0%R by ring. rewrite ?sqrt_0. lra. }
  assert (P : (0 <= rmax (1 / 2) 0)%R) by apply sqrt_pos.
  rewrite (vec_gen_rel _ _ _ _ (rel_floor _ P)). rewrite E.
  assert (F : Rfloor (sqrt 6) = 2).
  { apply Rfloor_unique. split.
    - replace (IZR 2) with (sqrt (2 ^ 2)) by (rewrite sqrt_pow2; lra). apply sqrt_le_1; lra.
    - replace (IZR 2 + 1)%R with (sqrt (3 ^ 2)) by (rewrite sqrt_pow2; lra). apply sqrt_lt_1; lra. }
  rewrite F. vm_compute. reflexivity.
Qed.
Lemma square_one_pass : exists st', direct_search 2 (eye 2) (eye 2) SQUARE_EXT_GROUP SQUARE_EXT_GROUP 1 (1 / 2) 100 1 rinit2 = Ok st' /\
  fst (fst st') = [([1; 0; 0; 1], 0%R)].
Proof.
  unfold direct_search, search. cbn [DirectModel.outer]. change (2 * 2)%nat with 4%nat.
  rewrite square_ball2. cbn [bind]. unfold rinit2.
  rewrite (inner_f IZR IZR_order 2 SQUARE_EXT_GROUP SQUARE_EXT_GROUP zdist _ square_dist).
  - set (r := inner _ _ _ _ _ _ _ _ _).
    assert (E : exists ext, r = Ok ([([1; 0; 0; 1], 0)], ext, Some 0, None)) by (eexists; vm_compute; reflexivity).
    destruct E as (ext & ->). cbn. eexists. split; reflexivity.
  - apply Forall_forall. intros l Hl. apply Nat.eqb_eq. revert l Hl. apply forallb_forall. vm_compute. reflexivity.
Qed.
