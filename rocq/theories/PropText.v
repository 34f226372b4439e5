(** Property C95: the report that lat_cor prints.  Specification: TextSpec.v (how the numbers are read out of the text);
    model: TextModel.v. *)
From Coq Require Import Ascii String Lia Lra.
From Verif Require Import LinAlg RMat TextModel TextSpec TextProofs DirectCorModel LatCorProofs.
Import ListNotations.
Local Open Scope list_scope.
Local Open Scope R_scope.

Lemma sort_R_length l : List.length (sort_R l) = List.length l.
Proof.
  assert (I : forall x l, List.length (insert_R x l) = S (List.length l)).
  { intros x k. induction k as [|y k IH]; [reflexivity|]. cbn. destruct (Rleb x y); [reflexivity|]. cbn. now rewrite IH. }
  induction l as [|x l IH]; [reflexivity|]. cbn. now rewrite I, IH.
Qed.

(** For every list of solutions and every dimension: the lines of the report are one block per solution, in the order of the
    list, and the numbers read from a block are those of the solution: correspondence to two places, stretch to six places,
    eigenvalues and distance to six significant digits. *)
Theorem C95_direct : forall sols nsol dim dist, (1 <= dim)%nat -> (forall d o, In (d, o) sols -> List.length (o_lams o) = dim) ->
  exists blocks, lines (sols_tostr sols nsol dim dist) = concat blocks ++ [[]] /\ List.length blocks = List.length sols /\
    forall i d o b, nth_error sols i = Some (d, o) -> nth_error blocks i = Some b ->
      shows_solution i nsol dim (dist_text dist) d (get (o_cor o)) (get (o_u o)) (o_lams o) b.
Proof.
  intros sols nsol dim dist Hd Hl.
  destruct (enum_blocks (fun i s => sol_tostr i nsol dim dist (fst s) (o_cor (snd s)) (o_u (snd s)) (o_lams (snd s)))
    (fun i s b => shows_solution i nsol dim (dist_text dist) (fst s) (get (o_cor (snd s))) (get (o_u (snd s))) (o_lams (snd s)) b) sols 0) as (bs & B1 & B2 & B3).
  - intros k [d o] r Hin. apply block_direct; [exact Hd|]. exact (Hl d o Hin).
  - exists bs. split; [exact B1|]. split; [exact B2|]. intros i d o b Hs Hb. exact (B3 i (d, o) b Hs Hb).
Qed.
Print Assumptions C95_direct.

Theorem C95_hnf : forall sols nsol dim dist, (1 <= dim)%nat -> (forall s o, In (s, o) sols -> List.length (o_lams o) = dim) ->
  exists blocks, lines (sols_tostr_hnf sols nsol dim dist) = concat blocks ++ [[]] /\ List.length blocks = List.length sols /\
    forall i s o b, nth_error sols i = Some (s, o) -> nth_error blocks i = Some b ->
      shows_solution_hnf i nsol dim (dist_text dist) (hd_ s) (get (o_cor o)) (get (o_u o)) (fun j k => IZR (get (hh s) j k)) (o_lams o) b.
Proof.
  intros sols nsol dim dist Hd Hl.
  destruct (enum_blocks (fun i s => sol_tostr_hnf i nsol dim dist (hd_ (fst s)) (o_cor (snd s)) (o_u (snd s)) (hh (fst s)) (o_lams (snd s)))
    (fun i s b => shows_solution_hnf i nsol dim (dist_text dist) (hd_ (fst s)) (get (o_cor (snd s))) (get (o_u (snd s))) (fun j k => IZR (get (hh (fst s)) j k)) (o_lams (snd s)) b) sols 0) as (bs & B1 & B2 & B3).
  - intros k [s o] r Hin. apply block_hnf; [exact Hd|]. exact (Hl s o Hin).
  - exists bs. split; [exact B1|]. split; [exact B2|]. intros i s o b Hs Hb. exact (B3 i (s, o) b Hs Hb).
Qed.
Print Assumptions C95_hnf.

(** A whole call: what lat_cor prints shows what it returns, whatever numpy, scipy and the random numbers do. *)
Lemma mapM_In {A B} (f : A -> res B) l ys y : mapM f l = Ok ys -> In y ys -> exists x, In x l /\ f x = Ok y.
Proof.
  revert ys. induction l as [|x l IH]; intros ys H Hy; cbn in H; [injection H as <-; destruct Hy|].
  apply bindOk in H. destruct H as (z & Hz & H). apply bindOk in H. destruct H as (zs & Hzs & H). injection H as <-.
  destruct Hy as [<-|Hy]; [exists x; split; [now left|exact Hz]|]. destruct (IH zs Hzs Hy) as (x' & X1 & X2). exists x'. split; [now right|exact X2].
Qed.
Lemma report_lams EA EM CA CM eig n l hl o : (forall C, List.length (fst (eig C)) = n) -> report EA EM CA CM eig l hl = Ok o -> List.length (o_lams o) = n.
Proof.
  intros He H. unfold report in H. apply bindOk in H. destruct H as (? & _ & H). apply bindOk in H. destruct H as (? & _ & H).
  match type of H with context [eig ?C] => specialize (He C); destruct (eig C) as [lam V] end.
  apply bindOk in H. destruct H as (? & _ & H). injection H as <-. cbn [o_lams]. rewrite sort_R_length, map_length. exact He.
Qed.
Theorem C95_lat_cor : forall w q fuel idA pA idM pM sols, (1 <= d_dim q)%Z -> let dim := Z.to_nat (d_dim q) in
  (forall C, List.length (fst (w_eig w C)) = dim) ->
  lat_cor_direct w q fuel idA pA idM pM = Ok sols ->
  exists blocks, lines (sols_tostr sols (d_nsol q) dim (d_dist q)) = concat blocks ++ [[]] /\ List.length blocks = List.length sols /\
    forall i d o b, nth_error sols i = Some (d, o) -> nth_error blocks i = Some b ->
      shows_solution i (d_nsol q) dim (dist_text (d_dist q)) d (get (o_cor o)) (get (o_u o)) (o_lams o) b.
Proof.
  intros w q fuel idA pA idM pM sols Hd dim He H. apply C95_direct; [unfold dim; lia|]. intros d o Hin. unfold lat_cor_direct in H.
  repeat (apply bindOk in H; destruct H as (? & _ & H)). match type of H with match ?a with _ => _ end = _ => destruct a as [alpha|]; [|discriminate] end. destruct (Rleb alpha 0); [discriminate|].
  apply bindOk in H. destruct H as (st & _ & H). destruct (mapM_In _ _ _ _ H Hin) as (s & _ & Hs). apply bindOk in Hs. destruct Hs as (o' & Ho & E).
  injection E as _ <-. unfold report_direct in Ho. exact (report_lams _ _ _ _ _ _ _ _ _ He Ho).
Qed.
Print Assumptions C95_lat_cor.

(** The formats on some numbers, and a line of the report. *)
Lemma floor_log a e : powerRZ 10 e <= a < powerRZ 10 (e + 1) -> Rfloor (ln a / ln 10) = e.
Proof.
  intros [H1 H2]. assert (P : 0 < a) by (pose proof (pz_pos e); lra). pose proof (log10_spec a P) as [L1 L2]. cbv zeta in *. set (f := Rfloor _) in *. clearbody f.
  assert (M : forall x y, (x < y)%Z -> powerRZ 10 (x + 1) <= powerRZ 10 y).
  { intros x y Hxy. replace y with (x + 1 + (y - x - 1))%Z by lia. rewrite (pz_add (x + 1)). rewrite (powerRZ_Z 10 (y - x - 1)) by (lia || lra).
    pose proof (pz_pos (x + 1)). pose proof (pow_R1_Rle 10 (Z.to_nat (y - x - 1)) ltac:(lra)). nra. }
  destruct (Z.lt_trichotomy f e) as [L|[->|L]]; [|reflexivity|]; apply M in L; lra.
Qed.
Lemma general_eq x e m : x <> 0 -> powerRZ 10 e <= Rabs x < powerRZ 10 (e + 1) -> Rabs (Rabs x * powerRZ 10 (5 - e) - IZR m) < 1/2 -> m <> 1000000%Z ->
  general x = minus x ++
    (if ((-4 <=? e) && (e <? 6))%Z
     then let q := Z.to_nat (5 - e) in point (dec (m / 10 ^ Z.of_nat q)) (digits q m)
     else point (dec (m / 100000)) (digits 5 m) ++ lit "e" ++ (if (e <? 0)%Z then lit "-" else lit "+") ++
          (if (Z.abs e <? 10)%Z then digits 2 (Z.abs e) else dec (Z.abs e))).
Proof.
  intros Hx He Hm N. unfold general. destruct (Reqb x 0) eqn:E; [apply Reqb_spec in E; contradiction|].
  rewrite (floor_log _ _ He). rewrite (rint_nearest _ _ Hm). rewrite (proj2 (Z.eqb_neq m 1000000) N). reflexivity.
Qed.
Ltac rabsv := unfold Rabs; repeat destruct (Rcase_abs _); lra.
Example C95_formats : general (1/3) = lit "0.333333" /\ general (- 1234567) = lit "-1.23457e+06" /\ general (1/80000) = lit "1.25e-05" /\ general 17 = lit "17" /\
  pad 5 (fixed 2 (-2/3)) = lit "-0.67" /\ pad 9 (fixed 6 (5/4)) = lit " 1.250000".
Proof.
  assert (M0 : minus (1/3) = [] /\ minus (1/80000) = [] /\ minus 17 = [] /\ minus (5/4) = []).
  { unfold minus. repeat split; (rewrite (proj2 (Rltb_false _ _)) by lra; reflexivity). }
  assert (M1 : minus (-1234567) = lit "-" /\ minus (-2/3) = lit "-") by (unfold minus; split; rewrite (proj2 (Rltb_spec _ _)) by lra; reflexivity).
  destruct M0 as (Ma & Mb & Mc & Md). destruct M1 as (Me & Mf).
  split; [|split; [|split; [|split; [|split]]]].
  - rewrite (general_eq (1/3) (-1) 333333), Ma; [reflexivity|lra|rewrite ?Rabs_right by lra; cbn -[IZR IPR]; unfold Pos.to_nat; cbn [Pos.iter_op Nat.add pow]; split; lra|rewrite (Rabs_right (1/3)) by lra; cbn -[IZR IPR]; unfold Pos.to_nat; cbn [Pos.iter_op Nat.add pow]; rabsv|discriminate].
  - rewrite (general_eq (-1234567) 6 123457), Me; [reflexivity|lra|rewrite ?Rabs_left by lra; cbn -[IZR IPR]; unfold Pos.to_nat; cbn [Pos.iter_op Nat.add pow]; split; lra|rewrite (Rabs_left (-1234567)) by lra; cbn -[IZR IPR]; unfold Pos.to_nat; cbn [Pos.iter_op Nat.add pow]; rabsv|discriminate].
  - rewrite (general_eq (1/80000) (-5) 125000), Mb; [reflexivity|lra|rewrite ?Rabs_right by lra; cbn -[IZR IPR]; unfold Pos.to_nat; cbn [Pos.iter_op Nat.add pow]; split; lra|rewrite (Rabs_right (1/80000)) by lra; cbn -[IZR IPR]; unfold Pos.to_nat; cbn [Pos.iter_op Nat.add pow]; rabsv|discriminate].
  - rewrite (general_eq 17 1 170000), Mc; [reflexivity|lra|rewrite ?Rabs_right by lra; cbn -[IZR IPR]; unfold Pos.to_nat; cbn [Pos.iter_op Nat.add pow]; split; lra|rewrite (Rabs_right 17) by lra; cbn -[IZR IPR]; unfold Pos.to_nat; cbn [Pos.iter_op Nat.add pow]; rabsv|discriminate].
  - unfold fixed. rewrite (rint_nearest _ 67), Mf by (rewrite (Rabs_left (-2/3)) by lra; rabsv). reflexivity.
  - unfold fixed. rewrite (rint_nearest _ 1250000), Md by (rewrite (Rabs_right (5/4)) by lra; rabsv). reflexivity.
Qed.
Example C95_case : cor_line 2 [[1; -2/3]; [0; 5/4]] 1 = lit "    [-0.67  1.25] ==> [ 0 1 ]" /\
  exists blocks, lines (sols_tostr [(0, {| o_l := eye 2; o_cor := eye 2; o_F := eye 2; o_u := eye 2; o_lams := [1; 1] |})] 1 2 Cauchy) = concat blocks ++ [[]] /\ List.length blocks = 1%nat.
Proof.
  split.
  - unfold cor_line, row_msg. cbn [seq map get nth]. change (get [[1; -2 / 3]; [0; 5 / 4]] 0 1) with (-2/3). change (get [[1; -2 / 3]; [0; 5 / 4]] 1 1) with (5/4).
    rewrite (proj1 (proj2 (proj2 (proj2 (proj2 C95_formats))))). unfold fixed. rewrite (rint_nearest _ 125) by (rewrite (Rabs_right (5/4)) by lra; rabsv).
    unfold minus. rewrite (proj2 (Rltb_false _ _)) by lra. reflexivity.
  - destruct (C95_direct [(0, {| o_l := eye 2; o_cor := eye 2; o_F := eye 2; o_u := eye 2; o_lams := [1; 1] |})] 1 2 Cauchy) as (b & B1 & B2 & _); [lia| |eauto].
    intros d o [E|[]]. injection E as <- <-. reflexivity.
Qed.
