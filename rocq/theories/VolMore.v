(** A larger volume threshold adds sublattices and keeps the ones that were searched (C104). *)
From Verif Require Import LinAlg HnfModel HnfSpec HnfProofs HnfCanon ReduceModel ReduceSpec ReduceProofs ReducePy2 PropHnf DirectProofs DistSpec HnfSearchModel HnfSearchSpec HnfSearchConc HnfSearchAsync RMat
  LatCorModel LatCorSpec LatCorProofs LatCorTotal PropHnfSearch.
Local Open Scope Z_scope.

Lemma unimodular_absdet (W : mat Z) : HnfSpec.unimodular 3 W -> Z.abs (det W) = 1.
Proof.
  intros (WW & V & WV & E & _). assert (K : det W * det V = 1) by (rewrite <- (det_mmul_Z 3) by (auto; now right); rewrite E; reflexivity).
  assert (Dv : (det W | 1)) by (exists (det V); lia). apply Z.divide_1_r in Dv. destruct Dv as [-> | ->]; reflexivity.
Qed.
Definition absdet (k : Z) (M : mat Z) : bool := Z.abs (det M) =? k.
Lemma mem_filter (f : mat Z -> bool) M keys : f M = true -> mem_mat M (filter f keys) = mem_mat M keys.
Proof.
  intros H. destruct (mem_mat M keys) eqn:E.
  - apply mem_mat_In. apply filter_In. split; [now apply mem_mat_In|exact H].
  - destruct (mem_mat M (filter f keys)) eqn:E'; [|reflexivity]. apply mem_mat_In, filter_In in E'. destruct E' as [E' _]. apply mem_mat_In in E'. congruence.
Qed.

Section Block.
  Variable D : division.
  Hypothesis HD : D = py3 \/ D = py2.
  Variable G : list (mat Z).
  Hypothesis HG : matrix_group 3 G.

  Lemma hnf_H_requiv M : full_rank 3 M -> exists H, hnf_H D 3 M = Ok H /\ requiv 3 M H.
  Proof.
    intros HF. destruct HD as [-> | ->].
    - destruct (hnf_H_ok py3 (fun d h => - d < h <= 0) py3_floor py3_ceil (fun _ _ _ H => H) 2 M HF) as (H & E & R & _). eauto.
    - destruct (hnf_H_ok py2 (fun d h => - d < h < d) py2_floor py2_ceil ltac:(cbn; intros; lia) 2 M HF) as (H & E & R & _). eauto.
  Qed.
  Lemma orbit_block k keys : forall lg h, (forall g, In g lg -> In g G) -> is_hnf 3 h -> absdet k h = true ->
    orbit_hits D lg h (filter (absdet k) keys) = orbit_hits D lg h keys.
  Proof.
    induction lg as [|g lg IH]; intros h Hsub Hh Hk; [reflexivity|]. cbn [orbit_hits]. assert (Hg : In g G) by (apply Hsub; now left).
    rewrite (ncols_prod 3 ltac:(lia) G HG) by (auto; apply Hh).
    assert (FR : full_rank 3 (mmul g h)).
    { apply (full_rank_left 3 ltac:(lia)); [now apply (group_unimodular 3 G HG)|]. apply is_hnf_full_rank; [lia|exact Hh]. }
    destruct (hnf_H_requiv (mmul g h) FR) as (H & E & WM & W & V & WW & WV & E1 & E2 & EH). rewrite E. cbn [bind].
    assert (Dk : absdet k H = true).
    { unfold absdet in *. rewrite EH, !(det_mmul_Z 3) by (auto; try apply Hh; try (now right); now apply HG). rewrite !Z.abs_mul.
      rewrite (unimodular_absdet W) by (split; eauto). rewrite (unimodular_absdet g) by (now apply (group_unimodular 3 G HG)). now rewrite Z.mul_1_l, Z.mul_1_r. }
    rewrite (mem_filter _ _ _ Dk). destruct (mem_mat H keys); [reflexivity|]. apply IH; auto. intros; apply Hsub; now right.
  Qed.
  Lemma reduce_block k : forall hnfs keys r, (forall h, In h hnfs -> is_hnf 3 h) -> reduce_loop D G hnfs keys = Ok r ->
    reduce_loop D G (filter (absdet k) hnfs) (filter (absdet k) keys) = Ok (filter (absdet k) r).
  Proof.
    induction hnfs as [|h hs IH]; intros keys r Hh H; cbn [reduce_loop filter] in *; [now injection H as <-|].
    assert (Ih : is_hnf 3 h) by (apply Hh; now left). assert (Hs : forall h', In h' hs -> is_hnf 3 h') by (intros; apply Hh; now right).
    destruct (orbit_hits D G h keys) as [b| |] eqn:O; cbn [bind] in H; try discriminate. specialize (IH _ _ Hs H). destruct (absdet k h) eqn:K.
    - cbn [reduce_loop]. rewrite (orbit_block k keys G h ltac:(auto) Ih K), O. cbn [bind]. rewrite (mem_filter _ _ _ K). destruct b; [exact IH|]. destruct (mem_mat h keys); [exact IH|].
      rewrite filter_app in IH. cbn [filter] in IH. now rewrite K in IH.
    - destruct b; [exact IH|]. destruct (mem_mat h keys); [exact IH|]. rewrite filter_app in IH. cbn [filter] in IH. rewrite K, app_nil_r in IH. exact IH.
  Qed.
End Block.

(** the Hermite normal forms of one size, as they come in the list *)
Lemma all_block k : forall vf hs, NoDup vf -> (forall j, In j vf -> 0 < j) -> In k vf -> all_hnfs vf 3 = Ok hs ->
  exists l, hnf_from_det k 3 = Ok (Some l) /\ filter (absdet k) hs = l.
Proof.
  intros vf hs ND Hp Hk H. unfold all_hnfs in H. apply bindOk in H. destruct H as (ls & H & E). injection E as <-.
  assert (None_ : forall vf ls, (forall j, In j vf -> 0 < j) -> ~ In k vf -> mapM (fun i => let* o := hnf_from_det i 3 in match o with Some l => Ok l | None => Raise TypeError end) vf = Ok ls ->
    filter (absdet k) (concat ls) = []).
  { clear. induction vf as [|j vf IH]; intros ls Hp Hk H; cbn [mapM] in H; [injection H as <-; reflexivity|]. apply bindOk in H. destruct H as (l & Hl & H).
    apply bindOk in H. destruct H as (ls' & H & E). injection E as <-. cbn [concat]. rewrite filter_app, (IH ls' (fun j Hj => Hp j (or_intror Hj)) (fun Hi => Hk (or_intror Hi)) H), app_nil_r.
    destruct (C03_hnf_from_det j 3 (Hp j (or_introl eq_refl)) ltac:(lia)) as (l' & El & _ & Il). rewrite El in Hl. cbn [bind] in Hl. injection Hl as <-.
    assert (K : forall h, In h l' -> absdet k h = false).
    { intros h Hh. apply Il in Hh. destruct Hh as [Ih Dh]. unfold absdet. rewrite det_hnf, Dh by exact Ih. apply Z.eqb_neq. pose proof (Hp j (or_introl eq_refl)). intros E. apply Hk. left. lia. }
    clear -K. induction l' as [|h l' IH]; [reflexivity|]. cbn. rewrite (K h) by now left. apply IH. intros; apply K; now right. }
  revert ls H. induction vf as [|j vf IH]; intros ls H; [destruct Hk|]. cbn [mapM] in H. apply bindOk in H. destruct H as (l & Hl & H).
  apply bindOk in H. destruct H as (ls' & H & E). injection E as <-. cbn [concat]. rewrite filter_app.
  destruct (C03_hnf_from_det j 3 (Hp j (or_introl eq_refl)) ltac:(lia)) as (l' & El & _ & Il). rewrite El in Hl. cbn [bind] in Hl. injection Hl as <-.
  inversion ND as [|? ? Nj ND']; subst. destruct (Z.eq_dec j k) as [->|Njk].
  - exists l'. split; [exact El|]. rewrite (None_ vf ls' (fun j Hj => Hp j (or_intror Hj)) Nj H), app_nil_r.
    assert (K : forall h, In h l' -> absdet k h = true).
    { intros h Hh. apply Il in Hh. destruct Hh as [Ih Dh]. unfold absdet. rewrite det_hnf, Dh by exact Ih. apply Z.eqb_eq. pose proof (Hp k (or_introl eq_refl)). lia. }
    clear -K. induction l' as [|h l' IH]; [reflexivity|]. cbn. rewrite (K h) by now left. f_equal. apply IH. intros; apply K; now right.
  - destruct Hk as [Hk|Hk]; [congruence|]. destruct (IH ND' (fun j Hj => Hp j (or_intror Hj)) Hk ls' H) as (l & E1 & E2). exists l. split; [exact E1|]. rewrite E2.
    replace (filter (absdet k) l') with (@nil (mat Z)); [reflexivity|]. symmetry.
    assert (K : forall h, In h l' -> absdet k h = false).
    { intros h Hh. apply Il in Hh. destruct Hh as [Ih Dh]. unfold absdet. rewrite det_hnf, Dh by exact Ih. apply Z.eqb_neq. pose proof (Hp j (or_introl eq_refl)). lia. }
    clear -K. induction l' as [|h l' IH]; [reflexivity|]. cbn. rewrite (K h) by now left. apply IH. intros; apply K; now right.
Qed.

Lemma reduce_more D G vf vf' hs hs' rs rs' : D = py3 \/ D = py2 -> matrix_group 3 G -> NoDup vf -> NoDup vf' -> (forall j, In j vf' -> 0 < j) -> incl vf vf' ->
  all_hnfs vf 3 = Ok hs -> all_hnfs vf' 3 = Ok hs' -> reduce_hnfs D hs G 3 = Ok rs -> reduce_hnfs D hs' G 3 = Ok rs' -> incl rs rs'.
Proof.
  intros HD HG ND ND' Hp' HI H H' R R' h Hh. assert (Hp : forall j, In j vf -> 0 < j) by auto.
  destruct (all_hnfs_total vf Hp) as (hs0 & E0 & I0). rewrite H in E0. injection E0 as <-. destruct (all_hnfs_total vf' Hp') as (hs1 & E1 & I1). rewrite H' in E1. injection E1 as <-.
  destruct (reduce_hnfs_any D HD 3 ltac:(lia) G HG hs) as (rs0 & E0 & Sub & _); [intros x Hx; now apply I0|]. rewrite R in E0. injection E0 as <-.
  assert (Ih : In h hs) by (clear -Sub Hh; induction Sub; cbn in *; [destruct Hh|auto|destruct Hh as [->|Hh]; auto]).
  destruct (proj1 (I0 h) Ih) as [Fh Vh]. set (k := det h) in *. assert (K : absdet k h = true) by (unfold absdet; pose proof (Hp k Vh); apply Z.eqb_eq; fold k; lia).
  destruct (all_block k vf hs ND Hp Vh H) as (l & El & Fl). destruct (all_block k vf' hs' ND' Hp' (HI k Vh) H') as (l' & El' & Fl'). rewrite El in El'. injection El' as <-.
  unfold reduce_hnfs in R, R'. cbn [Nat.leb] in R, R'.
  pose proof (reduce_block D HD G HG k hs [] rs (fun x Hx => proj1 (proj1 (I0 x) Hx)) R) as B. pose proof (reduce_block D HD G HG k hs' [] rs' (fun x Hx => proj1 (proj1 (I1 x) Hx)) R') as B'.
  rewrite Fl in B. rewrite Fl' in B'. cbn [filter] in B, B'. rewrite B in B'. injection B' as B'.
  assert (In h (filter (absdet k) rs)) as F by (apply filter_In; auto). rewrite B' in F. now apply filter_In in F.
Qed.

Lemma nearest_within r v k j : within r v j -> (Rabs (r - IZR k) <= 1/2)%R -> within r v k.
Proof.
  intros Hj C. unfold within in *.
  assert (K : (Rabs (r - IZR k) <= Rabs (r - IZR j))%R).
  { destruct (Z.eq_dec j k) as [->|N]; [apply Rle_refl|].
    assert (1 <= Rabs (IZR j - IZR k))%R. { rewrite <- minus_IZR, <- abs_IZR. apply IZR_le. lia. }
    pose proof (Rabs_triang (IZR j - r) (r - IZR k)) as T. replace (IZR j - r + (r - IZR k))%R with (IZR j - IZR k)%R in T by ring. rewrite (Rabs_minus_sym r (IZR j)). lra. }
  assert (Rabs (r - IZR j) <= v * r)%R by (apply Rabs_le; lra).
  pose proof (Rle_abs (r - IZR k)). pose proof (Rle_abs (- (r - IZR k))) as Q. rewrite Rabs_Ropp in Q. lra.
Qed.
Lemma within_more r v v' k : (0 < r)%R -> (v <= v')%R -> within r v k -> within r v' k.
Proof. intros Hr Hv H. unfold within in *. assert (v * r <= v' * r)%R by (apply Rmult_le_compat_r; lra). lra. Qed.
Lemma vf_more r v v' : (0 < r)%R -> (v <= v')%R -> incl (vol_factors r v) (vol_factors r v').
Proof.
  intros Hr Hv k Hk. destruct (vol_factors_spec r v) as [[He HS]|[Hn HS]], (vol_factors_spec r v') as [[He' HS']|[Hn' HS']].
  - apply HS'. apply HS in Hk. now apply (within_more r v).
  - exfalso. apply Hn'. exists k. apply HS in Hk. now apply (within_more r v).
  - rewrite HS in Hk. destruct Hk as [<-|[]]. apply HS'. destruct He' as (j & Hj). apply (nearest_within r v' _ j Hj). apply rint_close.
  - now rewrite HS' , <- HS.
Qed.
Lemma allowed_more r v v' k : (0 < r)%R -> (v <= v')%R -> allowed_size r v k -> allowed_size r v' k.
Proof.
  intros Hr Hv [H|[Hn H]]; [left; exact (within_more r v v' k Hr Hv H)|]. destruct (vol_factors_spec r v') as [[(j & Hj) _]|[Hn' _]].
  - left. exact (nearest_within r v' k j Hj H).
  - right. split; [exact Hn'|exact H].
Qed.
