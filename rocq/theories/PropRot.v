(** C23-C25: Euler, rotation, orientation relationships. *)
From Coq Require Import Ascii String.
From Verif Require Import LinAlg LatticeProofs BravaisProofs DistProofs RotModel RotSpec RotProofs.
Local Open Scope R_scope.

(** * C23 *)
(** letters for the axes, upper or lower case *)
Definition letter (a : ascii) : option axis :=
  match a with
  | "X" | "x" => Some AX
  | "Y" | "y" => Some AY
  | "Z" | "z" => Some AZ
  | _ => None
  end%char.
Definition in_radians (deg : bool) (t : R) : R := if deg then t * (PI / 180) else t.

Lemma letter_model a : canonical_rotation a = match letter a with Some AX => Some rotX | Some AY => Some rotY | Some AZ => Some rotZ | None => None end.
Proof. destruct a as [[] [] [] [] [] [] [] []]; reflexivity. Qed.
Lemma rad_model d t : to_rad d t = in_radians d t.
Proof. destruct d; [|reflexivity]. unfold to_rad, in_radians, radians. field. Qed.
Lemma wf_about a t : wf 3 3 (about a t). Proof. apply about_rot. Qed.
Lemma step_model a A : letter a = Some A -> exists f, canonical_rotation a = Some f /\ forall t, f t = about A t.
Proof.
  intros H. rewrite letter_model, H. destruct A; eexists; (split; [reflexivity|]); intros; [apply rotX_about|apply rotY_about|apply rotZ_about].
Qed.
Theorem C23_value t1 t2 t3 a1 a2 a3 A1 A2 A3 deg :
  letter a1 = Some A1 -> letter a2 = Some A2 -> letter a3 = Some A3 ->
  Euler [t1; t2; t3] (String a1 (String a2 (String a3 EmptyString))) deg
  = Ok (mmul (about A3 (in_radians deg t3)) (mmul (about A2 (in_radians deg t2)) (about A1 (in_radians deg t1)))).
Proof.
  intros H1 H2 H3. destruct (step_model a1 A1 H1) as (f1 & E1 & F1), (step_model a2 A2 H2) as (f2 & E2 & F2), (step_model a3 A3 H3) as (f3 & E3 & F3).
  unfold Euler. cbn [String.length List.length Nat.eqb negb orb list_ascii_of_string euler_loop nth]. rewrite E1, E2, E3, F1, F2, F3, !rad_model.
  now rewrite (mmul_eye_r 3 3) by (apply wf_about || lia).
Qed.
Theorem C23_rotation angles order deg M : Euler angles order deg = Ok M -> rotation_matrix 3 M.
Proof.
  intros H. unfold Euler in H. destruct (_ || _)%bool; [discriminate|]. revert H.
  assert (K : forall l i R0, rotation_matrix 3 R0 -> euler_loop angles deg i l R0 = Ok M -> rotation_matrix 3 M).
  { induction l as [|a l IH]; intros i R0 H0; cbn [euler_loop]; [now intros [= <-]|].
    destruct (letter a) as [A|] eqn:EA.
    - destruct (step_model a A EA) as (f & -> & F). apply IH. rewrite F. apply rot_mmul; [apply about_rot|exact H0].
    - rewrite letter_model, EA. discriminate. }
  apply K. split; [apply orth_eye; lia|]. apply (det_eye 3). now right.
Qed.
Theorem C23_inverse t1 t2 t3 a1 a2 a3 A1 A2 A3 deg M N :
  letter a1 = Some A1 -> letter a2 = Some A2 -> letter a3 = Some A3 ->
  Euler [t1; t2; t3] (String a1 (String a2 (String a3 EmptyString))) deg = Ok M ->
  Euler [- t3; - t2; - t1] (String a3 (String a2 (String a1 EmptyString))) deg = Ok N ->
  mmul N M = eye 3 /\ mmul M N = eye 3.
Proof.
  intros H1 H2 H3. rewrite (C23_value t1 t2 t3 a1 a2 a3 A1 A2 A3), (C23_value _ _ _ a3 a2 a1 A3 A2 A1) by assumption.
  intros [= <-] [= <-]. assert (IN : forall t, in_radians deg (- t) = - in_radians deg t) by (intros; destruct deg; cbn; [field|reflexivity]).
  rewrite !IN. set (u1 := in_radians deg t1). set (u2 := in_radians deg t2). set (u3 := in_radians deg t3).
  pose proof (wf_about A1) as W1. pose proof (wf_about A2) as W2. pose proof (wf_about A3) as W3. assert (L : (0 < 3)%nat) by lia.
  assert (NM : mmul (mmul (about A1 (- u1)) (mmul (about A2 (- u2)) (about A3 (- u3)))) (mmul (about A3 u3) (mmul (about A2 u2) (about A1 u1))) = eye 3).
  { rewrite (mmul_assoc 3 3 3 3) by (repeat apply (wf_mmul 3 3 3); auto).
    rewrite (mmul_assoc 3 3 3 3 (about A2 (- u2))) by (repeat apply (wf_mmul 3 3 3); auto).
    rewrite <- (mmul_assoc 3 3 3 3 (about A3 (- u3))) by (repeat apply (wf_mmul 3 3 3); auto).
    rewrite about_neg, (mmul_eye_l 3 3) by (repeat apply (wf_mmul 3 3 3); auto).
    rewrite <- (mmul_assoc 3 3 3 3 (about A2 (- u2))) by (repeat apply (wf_mmul 3 3 3); auto).
    rewrite about_neg, (mmul_eye_l 3 3), about_neg by (repeat apply (wf_mmul 3 3 3); auto). reflexivity. }
  split; [exact NM|]. apply (inv_comm 3); [now right|..|exact NM]; repeat apply (wf_mmul 3 3 3); auto.
Qed.
Theorem C23_errors angles order deg : List.length angles <> 3%nat \/ String.length order <> 3%nat \/
  (exists a, In a (list_ascii_of_string order) /\ letter a = None) -> Euler angles order deg = Raise ValueError.
Proof.
  intros H. unfold Euler. destruct (List.length angles =? 3)%nat eqn:E1; [|reflexivity]. destruct (String.length order =? 3)%nat eqn:E2; [|reflexivity].
  apply Nat.eqb_eq in E1, E2. cbn [negb orb]. destruct H as [H|[H|(a & HI & HL)]]; [tauto|tauto|].
  assert (K : forall l i R0, In a l -> euler_loop angles deg i l R0 = Raise ValueError); [|now apply K].
  induction l as [|b l IH]; intros i R0 HJ; [destruct HJ|]. cbn [euler_loop].
  destruct HJ as [->|HJ]; [now rewrite letter_model, HL|]. destruct (canonical_rotation b); [now apply IH|reflexivity].
Qed.
Example C23_case : Euler [30; 45; 60] "zXz" true
  = Ok (mmul (about AZ (60 * (PI / 180))) (mmul (about AX (45 * (PI / 180))) (about AZ (30 * (PI / 180))))).
Proof. exact (C23_value 30 45 60 "z" "X" "z" AZ AX AZ true eq_refl eq_refl eq_refl). Qed.
Print Assumptions C23_value.
Print Assumptions C23_rotation.
Print Assumptions C23_inverse.
Print Assumptions C23_errors.

Ltac veq tac := unfold cross; cbn; apply f_equal2; [tac|apply f_equal2; [tac|apply f_equal2; [tac|reflexivity]]].
(** * C24 *)
(** every axis but the zero vector and the negative multiples of e1 *)
Theorem C24_rodrigues_partial angle a b c deg : let n := sqrt (a * a + b * b + c * c) in
  (a, b, c) <> (0, 0, 0) -> ~ (a < 0 /\ b = 0 /\ c = 0) ->
  rotation angle [a; b; c] deg = Ok (rodrigues (in_radians deg angle) (a / n) (b / n) (c / n)).
Proof.
  intros n H0 H1. assert (SS : a * a + b * b + c * c <> 0).
  { intros K. apply H0. pose proof (Rle_0_sqr a) as Ka. pose proof (Rle_0_sqr b) as Kb. pose proof (Rle_0_sqr c) as Kc. unfold Rsqr in *.
    assert (a * a = 0) by lra. assert (b * b = 0) by lra. assert (c * c = 0) by lra.
    assert (a = 0) by nra. assert (b = 0) by nra. assert (c = 0) by nra. congruence. }
  assert (Np : 0 < n) by (apply sqrt_lt_R0, ss_pos, SS).
  destruct (normalize3 a b c) as [E1 E2]; [fold n; lra|]. fold n in E1, E2.
  unfold rotation. rewrite E1. cbn [bind]. rewrite rad_model. set (t := in_radians deg angle).
  assert (U : a / n * (a / n) + b / n * (b / n) + c / n * (c / n) = 1).
  { transitivity ((a * a + b * b + c * c) / (n * n)); [field; lra|]. rewrite E2. field. exact SS. }
  set (x := a / n) in *. set (y := b / n) in *. set (z := c / n) in *.
  rewrite dot3. replace (x * 1 + y * 0 + z * 0) with x by ring.
  assert (YZ : y = 0 -> z = 0 -> x = 1).
  { intros Hy Hz. assert (b = 0) by (unfold y in Hy; apply (Rmult_eq_reg_r (/ n)); [unfold Rdiv in Hy; lra|apply Rinv_neq_0_compat; lra]).
    assert (c = 0) by (unfold z in Hz; apply (Rmult_eq_reg_r (/ n)); [unfold Rdiv in Hz; lra|apply Rinv_neq_0_compat; lra]).
    assert (0 <= a) by lra. assert (0 <= x) by (apply Rmult_le_pos; [lra|]; left; now apply Rinv_0_lt_compat).
    rewrite Hy, Hz in U. nra. }
  clearbody x y z. destruct (Rltb x (9 / 10)) eqn:EX.
  - apply Rltb_spec in EX. destruct (frame_rotation t x y z 0 z (- y) U) as (z1 & z2 & F1 & F2 & F3); [ring| |].
    + intros K. assert (y = 0) by nra. assert (z = 0) by nra. rewrite (YZ H H2) in EX. lra.
    + replace (cross [x; y; z] [1; 0; 0]) with [0; z; - y] by (veq ltac:(ring)).
      rewrite F1, F2. cbn [bind]. now rewrite F3.
  - apply Rltb_false in EX. destruct (frame_rotation t x y z (- z) 0 x U) as (z1 & z2 & F1 & F2 & F3); [ring| |].
    + intros K. nra.
    + replace (cross [x; y; z] [0; 1; 0]) with [- z; 0; x] by (veq ltac:(ring)).
      rewrite F1, F2. cbn [bind]. now rewrite F3.
Qed.
Lemma unit_axis a b c : let n := sqrt (a * a + b * b + c * c) in
  (a, b, c) <> (0, 0, 0) -> 0 < n /\ a / n * (a / n) + b / n * (b / n) + c / n * (c / n) = 1.
Proof.
  intros n H0. assert (SS : a * a + b * b + c * c <> 0).
  { intros K. apply H0. pose proof (Rle_0_sqr a) as Ka. pose proof (Rle_0_sqr b) as Kb. pose proof (Rle_0_sqr c) as Kc. unfold Rsqr in *.
    assert (a * a = 0) by lra. assert (b * b = 0) by lra. assert (c * c = 0) by lra.
    assert (a = 0) by nra. assert (b = 0) by nra. assert (c = 0) by nra. congruence. }
  assert (Np : 0 < n) by (apply sqrt_lt_R0, ss_pos, SS). split; [exact Np|].
  destruct (normalize3 a b c) as [E1 E2]; [fold n; lra|]. fold n in E2.
  transitivity ((a * a + b * b + c * c) / (n * n)); [field; lra|]. rewrite E2. field. exact SS.
Qed.
Theorem C24_is_rotation_partial angle a b c deg : (a, b, c) <> (0, 0, 0) -> ~ (a < 0 /\ b = 0 /\ c = 0) ->
  exists M, rotation angle [a; b; c] deg = Ok M /\ rotation_matrix 3 M /\ mvmul M [a; b; c] = [a; b; c].
Proof.
  intros H0 H1. destruct (unit_axis a b c H0) as [Np U]. eexists. split; [now apply C24_rodrigues_partial|].
  set (n := sqrt (a * a + b * b + c * c)) in *. set (t := in_radians deg angle).
  split; [split; [now apply rod_orth|now apply rod_det]|].
  pose proof (rod_axis (a / n) (b / n) (c / n) U t) as K.
  assert (V : [a; b; c] = map (Rmult n) [a / n; b / n; c / n]) by (veq ltac:(field; lra)).
  rewrite V. set (x := a / n) in *. set (y := b / n) in *. set (z := c / n) in *. clearbody x y z n. clear V.
  assert (L : mvmul (rodrigues t x y z) (map (Rmult n) [x; y; z]) = map (Rmult n) (mvmul (rodrigues t x y z) [x; y; z])) by (unfold rodrigues; veq ltac:(ring)).
  now rewrite L, K.
Qed.
Theorem C24_additive_partial s t a b c deg M N P : (a, b, c) <> (0, 0, 0) -> ~ (a < 0 /\ b = 0 /\ c = 0) ->
  rotation s [a; b; c] deg = Ok M -> rotation t [a; b; c] deg = Ok N -> rotation (s + t) [a; b; c] deg = Ok P -> P = mmul M N.
Proof.
  intros H0 H1. destruct (unit_axis a b c H0) as [Np U]. rewrite !C24_rodrigues_partial by assumption. intros [= <-] [= <-] [= <-].
  replace (in_radians deg (s + t)) with (in_radians deg s + in_radians deg t) by (destruct deg; cbn; ring). now apply rod_add.
Qed.
(** Along the negative first axis the result is a matrix of NaNs. *)
Theorem C24_negative_e1_refuted angle a deg : a < 0 -> rotation angle [a; 0; 0] deg = Raise NaN.
Proof.
  intros Ha. assert (H0 : (a, 0, 0) <> (0, 0, 0)) by (intros K; injection K; lra). destruct (unit_axis a 0 0 H0) as [Np U].
  set (n := sqrt (a * a + 0 * 0 + 0 * 0)) in *. destruct (normalize3 a 0 0) as [E1 E2]; [fold n; lra|]. fold n in E1, E2.
  unfold rotation. rewrite E1. cbn [bind]. rewrite dot3. assert (X : a / n < 0) by (assert (0 < - a / n) by (apply Rdiv_lt_0_compat; lra); unfold Rdiv in *; lra).
  rewrite (proj2 (Rltb_spec _ _)) by lra.
  replace (cross [a / n; 0 / n; 0 / n] [1; 0; 0]) with [0; 0; 0] by (veq ltac:(field; lra)).
  unfold normalize at 1, vnorm. rewrite dot3. replace (0 * 0 + 0 * 0 + 0 * 0) with 0 by ring. rewrite sqrt_0, (proj2 (Reqb_spec _ _)) by reflexivity. reflexivity.
Qed.
Example C24_case : (1, 2, 2) <> (0, 0, 0) /\ ~ (1 < 0 /\ 2 = 0 /\ 2 = 0).
Proof. split; [intros K; injection K; lra|lra]. Qed.
Print Assumptions C24_rodrigues_partial.
Print Assumptions C24_is_rotation_partial.
Print Assumptions C24_additive_partial.

(** * C25 *)
Lemma dot_sum n (u v : list R) : List.length u = n -> dot u v = sumn n (fun k => vget u k * vget v k).
Proof. intros <-. reflexivity. Qed.
Lemma or_rows_one n x : List.length x = n -> or_rows n (One x) = Ok [x].
Proof. intros H. unfold or_rows. cbn. rewrite H, Nat.eqb_refl. reflexivity. Qed.
Lemma len_mv n (M : mat R) x : wf n n M -> List.length (mvmul M x) = n.
Proof. intros W. apply (length_mvmul n n M x W). Qed.
Lemma direc_one n L d : dim23 n -> wf n n L -> det L <> 0 -> List.length d = n -> direc_trans L (One d) = Ok (One (mvmul (minv L) d)).
Proof.
  intros D W DL Hd. unfold direc_trans. rewrite (inv_Ok n) by assumption. cbn [bind]. rewrite (proj1 W), or_rows_one by assumption. reflexivity.
Qed.
Lemma plane_one n L d : wf n n L -> List.length d = n -> plane_trans L (One d) = Ok (One (mvmul (tr L) d)).
Proof. intros W Hd. unfold plane_trans. rewrite (proj1 W), or_rows_one by assumption. reflexivity. Qed.
(** p . d is unchanged *)
Theorem C25_dual n L d p : dim23 n -> wf n n L -> det L <> 0 -> List.length d = n -> List.length p = n ->
  exists d' p', direc_trans L (One d) = Ok (One d') /\ plane_trans L (One p) = Ok (One p') /\ dot p' d' = dot p d.
Proof.
  intros D W DL Hd Hp. exists (mvmul (minv L) d), (mvmul (tr L) p). split; [now apply (direc_one n)|]. split; [now apply (plane_one n)|].
  pose proof (dim23_pos n D) as Hn. pose proof (wf_tr' n n L Hn W) as WT. pose proof (wf_minv n L D W) as WI.
  assert (E : d = mvmul L (mvmul (minv L) d)) by (rewrite <- (mvmul_mmul n), (minv_r n), mvmul_eye; auto).
  rewrite E at 2. set (e := mvmul (minv L) d). assert (He : List.length e = n) by now apply len_mv.
  rewrite (dot_sum n), (dot_sum n) by (auto; now apply len_mv).
  transitivity (sumn n (fun k => sumn n (fun i => vget p i * get L i k * vget e k))).
  - apply sumn_eq_R. intros k Hk. rewrite (vget_mvmul n n), ?Hp, ?He by assumption. rewrite (Rmult_comm _ (vget e k)), <- sumn_mult. apply sumn_eq_R. intros i Hi.
    rewrite (get_tr' n n) by assumption. cbn. ring.
  - rewrite sumn_swap_R. apply sumn_eq_R. intros i Hi. rewrite (vget_mvmul n n), ?Hp, ?He by assumption. rewrite <- sumn_mult. apply sumn_eq_R. intros k Hk. cbn. ring.
Qed.
(** using the inverse correspondence undoes both maps *)
Theorem C25_inverse n L Li x : dim23 n -> wf n n L -> det L <> 0 -> inv L = Ok Li -> List.length x = n ->
  (exists y, direc_trans L (One x) = Ok (One y) /\ direc_trans Li (One y) = Ok (One x)) /\
  (exists y, plane_trans L (One x) = Ok (One y) /\ plane_trans Li (One y) = Ok (One x)).
Proof.
  intros D W DL EI Hx. rewrite (inv_Ok n) in EI by assumption. injection EI as <-.
  pose proof (dim23_pos n D) as Hn. pose proof (wf_tr' n n L Hn W) as WT. pose proof (wf_minv n L D W) as WI. pose proof (wf_tr' n n _ Hn WI) as WIT.
  assert (DI : det (minv L) <> 0) by (rewrite (det_minv n) by assumption; now apply Rinv_neq_0_compat).
  split; eexists; (split; [first [now apply (direc_one n)|now apply (plane_one n)]|]).
  - rewrite (direc_one n) by (auto; now apply len_mv). do 2 f_equal. rewrite minv_minv with (n := n) by assumption.
    rewrite <- (mvmul_mmul n), (minv_r n), mvmul_eye; auto.
  - rewrite (plane_one n) by (auto; now apply len_mv). do 2 f_equal.
    rewrite <- (mvmul_mmul n) by auto. rewrite <- (tr_mmul n n n), (minv_r n), tr_eye, mvmul_eye; auto.
Qed.
(** lists are transformed element by element (a list of one comes back as a single vector) *)
Theorem C25_elementwise n L xs : dim23 n -> wf n n L -> det L <> 0 -> (forall x, In x xs -> List.length x = n) -> xs <> [] ->
  exists ds ps, Forall2 (fun x d => direc_trans L (One x) = Ok (One d)) xs ds /\
    Forall2 (fun x p => plane_trans L (One x) = Ok (One p)) xs ps /\
    direc_trans L (Many xs) = Ok (match ds with [d] => One d | _ => Many ds end) /\
    plane_trans L (Many xs) = Ok (match ps with [p] => One p | _ => Many ps end).
Proof.
  intros D W DL HX HN. exists (map (mvmul (minv L)) xs), (map (mvmul (tr L)) xs).
  assert (OR : or_rows (List.length L) (Many xs) = Ok xs).
  { rewrite (proj1 W). unfold or_rows. destruct xs as [|x xs]; [tauto|]. rewrite (proj2 (forallb_forall _ _)); [reflexivity|].
    intros y Hy. apply Nat.eqb_eq. now apply HX. }
  split; [|split; [|split]].
  - clear HN OR. induction xs as [|x xs IH]; constructor; [apply (direc_one n); auto; apply HX; now left|]. apply IH. intros; apply HX; now right.
  - clear HN OR. induction xs as [|x xs IH]; constructor; [apply (plane_one n); auto; apply HX; now left|]. apply IH. intros; apply HX; now right.
  - unfold direc_trans. rewrite (inv_Ok n) by assumption. cbn [bind]. rewrite OR. reflexivity.
  - unfold plane_trans. rewrite OR. reflexivity.
Qed.
Example C25_case : dim23 3 /\ wf 3 3 ([[1; 1; 0]; [-1; 1; 0]; [0; 0; 1]] : mat R) /\ det ([[1; 1; 0]; [-1; 1; 0]; [0; 0; 1]] : mat R) <> 0.
Proof. split; [now right|]. split; [apply w33|]. rewrite det3. lra. Qed.
Print Assumptions C25_dual.
Print Assumptions C25_inverse.
Print Assumptions C25_elementwise.
