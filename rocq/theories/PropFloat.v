(** C68: double precision division in hnfd. *)
From Verif Require Import FloatDiv FloatProofs HnfSpec HnfProofs HnfFloat.
Local Open Scope Z_scope.

(** Up to 2^53 floor and ceil of the rounded quotient are those of the exact quotient. *)
Theorem C68_quotient : forall a b, Z.abs a <= 2 ^ 53 -> Z.abs b <= 2 ^ 53 -> b <> 0 ->
  fdiv py3_double a b = Ok (a / b) /\ cdiv py3_double a b = Ok (- (- a / b)).
Proof. intros a b Ha Hb Nb. split; [apply floor_double|apply ceil_double]; lia. Qed.
Print Assumptions C68_quotient.

Lemma double_agree a b : Z.abs a <= 2 ^ 53 -> 0 < b <= 2 ^ 53 -> fdiv py3_double a b = fdiv py3 a b /\ cdiv py3_double a b = cdiv py3 a b.
Proof.
  intros Ha Hb. destruct (C68_quotient a b Ha ltac:(lia) ltac:(lia)) as [-> ->]. cbn. now rewrite (proj2 (Z.eqb_neq b 0)) by lia.
Qed.
Lemma hnfd_congr n M D D' : wf n n M -> hnf_H D n M = hnf_H D' n M -> hnfd D M = hnfd D' M.
Proof.
  intros W E. destruct n as [|n]; [destruct M; [reflexivity|destruct W; discriminate]|]. destruct M as [|r M]; [destruct W; discriminate|].
  unfold hnfd. rewrite (ncols_wf _ _ _ W). destruct n; [reflexivity|]. now rewrite E.
Qed.

(** hnfd with double precision division is hnfd with exact division: for 3x3 matrices with entries up to 281, *)
Theorem C68_hnfd3 : forall M, full_rank 3 M -> (forall i j, (i < 3)%nat -> (j < 3)%nat -> Z.abs (get M i j) <= 281) ->
  hnfd py3_double M = hnfd py3 M.
Proof.
  intros M F H. apply (hnfd_congr 3); [apply F|]. apply (hnf_H3 _ _ double_agree M 281); auto; vm_compute; discriminate.
Qed.
Print Assumptions C68_hnfd3.
(** for 2x2 matrices with entries up to 2^26, *)
Theorem C68_hnfd2 : forall M, full_rank 2 M -> (forall i j, (i < 2)%nat -> (j < 2)%nat -> Z.abs (get M i j) <= 2 ^ 26) ->
  hnfd py3_double M = hnfd py3 M.
Proof.
  intros M F H. apply (hnfd_congr 2); [apply F|]. apply (hnf_H2 _ _ double_agree M (2 ^ 26)); auto; vm_compute; discriminate.
Qed.
Print Assumptions C68_hnfd2.
(** and for every matrix of any size for which the exact computation divides no numbers beyond 2^53: [checked] is exact division that
    stops when it meets one. *)
Definition checked : division :=
  let small a b := (Z.abs a <=? 2 ^ 53) && (Z.abs b <=? 2 ^ 53) && negb (b =? 0) in
  {| fdiv a b := if small a b then Ok (a / b) else NoFuel; cdiv a b := if small a b then Ok (- (- a / b)) else NoFuel |}.
Definition refines (D D' : division) := forall a b q, (fdiv D a b = Ok q -> fdiv D' a b = Ok q) /\ (cdiv D a b = Ok q -> cdiv D' a b = Ok q).
Lemma bind_Ok {A B} (x : res A) (f : A -> res B) r : (let* a := x in f a) = Ok r -> exists a, x = Ok a /\ f a = Ok r.
Proof. destruct x; cbn; [eauto|discriminate|discriminate]. Qed.
Lemma gcd_loop_refines D D' : refines D D' -> forall f M c1 c2 r, gcd_loop D f M c1 c2 = Ok r -> gcd_loop D' f M c1 c2 = Ok r.
Proof.
  intros H. induction f as [|f IH]; intros M c1 c2 r; cbn [gcd_loop]; destruct (_ =? _); auto; try discriminate.
  intros E. apply bind_Ok in E. destruct E as (t & E1 & E2). rewrite (proj1 (H _ _ _) E1). cbn [bind]. auto.
Qed.
Lemma fix_rows_refines D D' : refines D D' -> forall l M r, fix_rows D l M = Ok r -> fix_rows D' l M = Ok r.
Proof.
  intros H. induction l as [|k l IH]; intros M r; cbn [fix_rows]; [auto|]. intros E. apply bind_Ok in E. destruct E as (M1 & E1 & E2).
  assert (K : fix_row D' M k = Ok M1).
  { unfold fix_row in *. destruct (_ <=? _)%nat; [discriminate|]. apply bind_Ok in E1. destruct E1 as (M2 & E3 & E4).
    assert (E3' : (if 0 <? get M k 0 then let* q := cdiv D' (get M k 0) (get M k k) in Ok (add_col M 0 k (- q)) else Ok M) = Ok M2).
    { destruct (0 <? _); [|exact E3]. apply bind_Ok in E3. destruct E3 as (q & E5 & E6). rewrite (proj2 (H _ _ _) E5). exact E6. }
    rewrite E3'. cbn [bind]. destruct (_ <=? _); [|exact E4]. apply bind_Ok in E4. destruct E4 as (q & E5 & E6). rewrite (proj1 (H _ _ _) E5). exact E6. }
  rewrite K. cbn [bind]. auto.
Qed.
Lemma hnf_H_refines D D' : refines D D' -> forall m M r, hnf_H D m M = Ok r -> hnf_H D' m M = Ok r.
Proof.
  intros H. assert (C : forall k M r, clear_row D k M = Ok r -> clear_row D' k M = Ok r).
  { induction k as [|k IH]; intros M r; cbn [clear_row]; [auto|]. intros E. apply bind_Ok in E. destruct E as (M1 & E1 & E2).
    unfold gcd_cols in E1 |- *. rewrite (gcd_loop_refines D D' H _ _ _ _ _ E1). cbn [bind]. auto. }
  induction m as [|m IH]; intros M r; [destruct M; discriminate|]. destruct M as [|x M]; [discriminate|]. destruct m as [|m]; [auto|].
  intros E. change (hnf_H D (S (S m)) (x :: M)) with (let* H := clear_row D (S m) (nonneg_row0 (x :: M)) in let* Hsub := hnf_H D (S m) (subblock H) in fix_rows D (seq 1 (nrows (x :: M) - 1)) (set_subblock H Hsub)) in E.
  change (hnf_H D' (S (S m)) (x :: M)) with (let* H := clear_row D' (S m) (nonneg_row0 (x :: M)) in let* Hsub := hnf_H D' (S m) (subblock H) in fix_rows D' (seq 1 (nrows (x :: M) - 1)) (set_subblock H Hsub)).
  apply bind_Ok in E. destruct E as (H1 & E1 & E2). apply bind_Ok in E2. destruct E2 as (Hs & E2 & E3). rewrite (C _ _ _ E1). cbn [bind]. rewrite (IH _ _ E2). cbn [bind].
  now apply (fix_rows_refines D D' H).
Qed.
Lemma hnfd_refines D D' : refines D D' -> forall M r, hnfd D M = Ok r -> hnfd D' M = Ok r.
Proof.
  intros H M r. unfold hnfd. destruct M as [|x M]; [auto|]. destruct (ncols (x :: M)) as [|[|m]]; auto; intros E; apply bind_Ok in E; destruct E as (H1 & E1 & E2);
    rewrite (hnf_H_refines D D' H _ _ _ E1); exact E2.
Qed.
Lemma checked_refines D : (forall a b, Z.abs a <= 2 ^ 53 -> Z.abs b <= 2 ^ 53 -> b <> 0 -> fdiv D a b = Ok (a / b) /\ cdiv D a b = Ok (- (- a / b))) -> refines checked D.
Proof.
  intros H a b q. unfold checked. cbn [fdiv cdiv]. destruct (Z.leb_spec (Z.abs a) (2 ^ 53)); cbn [andb]; [|split; discriminate]. destruct (Z.leb_spec (Z.abs b) (2 ^ 53)); cbn [andb]; [|split; discriminate].
  destruct (Z.eqb_spec b 0); cbn [negb]; [split; discriminate|]. destruct (H a b) as [-> ->]; auto.
Qed.
Theorem C68_hnfd : forall M r, hnfd checked M = Ok r -> hnfd py3_double M = Ok r /\ hnfd py3 M = Ok r.
Proof.
  intros M r E. split; apply (hnfd_refines checked); auto; apply checked_refines.
  - exact C68_quotient.
  - intros a b _ _ Nb. cbn. now rewrite (proj2 (Z.eqb_neq b 0)) by lia.
Qed.
Print Assumptions C68_hnfd.

(** Beyond these bounds it fails: already for 2^53 + 1 divided by 1, and hnfd returns a matrix with a negative corner. *)
Theorem C68_limit : (exists a, a = 2 ^ 53 + 1 /\ fdiv py3_double a 1 = Ok (a - 1)) /\
  exists M H L, full_rank 2 M /\ (forall i j, (i < 2)%nat -> (j < 2)%nat -> Z.abs (get M i j) <= 2 ^ 53 + 3) /\ hnfd py3_double M = Ok (H, L) /\ get H 0 0 < 0 /\ ~ is_hnf 2 H.
Proof.
  split; [exists (2 ^ 53 + 1); split; [reflexivity|vm_compute; reflexivity]|].
  exists [[2 ^ 53 + 3; 1]; [0; 1]], [[-1; 0]; [-1; 9007199254740995]], [[-9007199254740995; -1]; [-1; 0]].
  split; [|split; [|split; [vm_compute; reflexivity|split; [reflexivity|]]]].
  - split; [apply wfb_spec; reflexivity|]. intros y H i Hi. pose proof (H 0%nat ltac:(lia)) as H0. pose proof (H 1%nat ltac:(lia)) as H1. unfold get in *. cbn -[Z.mul Z.add] in H0, H1. destruct i as [|[|]]; lia.
  - intros i j Hi Hj. destruct i as [|[|i]], j as [|[|j]]; cbn; lia.
  - intros (_ & _ & P & _). specialize (P 0%nat ltac:(lia)). cbn in P. lia.
Qed.
Print Assumptions C68_limit.

(** cases of the hypotheses *)
Example C68_case : let M := [[2; 3; 1]; [4; -1; 7]; [0; 5; 281]] in
  full_rank 3 M /\ (forall i j, (i < 3)%nat -> (j < 3)%nat -> Z.abs (get M i j) <= 281) /\
  hnfd py3_double M = hnfd py3 M /\
  exists r, hnfd checked [[200; 3; 1; 7]; [4; -1; 7; 500]; [0; 5; 281; 2]; [9; 8; -300; 1]] = Ok r.
Proof.
  split; [|split; [|split; [vm_compute; reflexivity|eexists; vm_compute; reflexivity]]].
  - split; [apply wfb_spec; reflexivity|]. intros y H i Hi. pose proof (H 0%nat ltac:(lia)) as H0. pose proof (H 1%nat ltac:(lia)) as H1. pose proof (H 2%nat ltac:(lia)) as H2. unfold get in *. cbn -[Z.mul Z.add] in H0, H1, H2. destruct i as [|[|[|]]]; lia.
  - intros i j Hi Hj. destruct i as [|[|[|]]], j as [|[|[|]]]; cbn; lia.
Qed.
