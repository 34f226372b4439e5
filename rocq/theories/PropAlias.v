(** C67: deprecated methods against their replacements. *)
From Verif Require Import AliasModel LinAlg LatticeSpec LatticeProofs PropLattice PropBravais BravaisSpec.
Local Open Scope R_scope.

(** Missing: the three methods in C67_refuted. *)
Theorem C67_aliases_partial :
  (forall E, getbase E = E /\ getLauegroup E = Laue_group E /\ getpointgroup E = point_group E /\ getspeciallatticegroup E = special_lattice_group E) /\
  (forall b, getLatID b = b_id b /\ getLatParam b = b_par b /\ getConventionalTrans b = conventional_trans b /\ getConventionalBase b = conventional_base b).
Proof. repeat split. Qed.
Print Assumptions C67_aliases_partial.

(** getlatticegroup returns half of the lattice group, for every lattice in three dimensions; the two conversions always
    raise, also for the indices their replacements accept. *)
Theorem C67_refuted :
  (forall E, base 3 E -> exists L1 L2, getlatticegroup E = Ok L1 /\ lattice_group E = Ok L2 /\ length L2 = (2 * length L1)%nat /\ L1 <> L2) /\
  (forall dim id s ce p c b i, bravais_type dim id = Some (s, ce) -> admissible s p c -> new_bravais id p dim = Ok b -> valid_index (Z.to_nat dim) i ->
     (exists r, to_primitive_Miller b i = Ok r /\ toPrimitive b i = Raise AttributeError) /\
     (exists r, to_conventional_Miller b i = Ok r /\ toConventional b i = Raise TypeError)).
Proof.
  split.
  - intros E B. destruct (C14_laue_partial 3 E B) as (G & EG & _ & IG & _). pose proof B as (_ & W & D).
    unfold getlatticegroup, special_lattice_group, lattice_group, point_group. rewrite EG. replace (length E) with 3%nat by (symmetry; apply W). cbn [bind].
    unfold to_integer_rep. rewrite (inv_Ok 3) by (exact (or_intror eq_refl) || assumption). cbn [bind]. eexists _, _. split; [reflexivity|]. split; [reflexivity|].
    assert (L : forall X Y : list (mat R), length (X ++ map mopp X) = (2 * length X)%nat) by (intros; rewrite app_length, map_length; lia).
    rewrite !map_length, L by exact G. split; [reflexivity|]. intros K. apply (f_equal (@length _)) in K. rewrite !map_length, L in K by exact G.
    destruct G; [destruct IG|]. cbn in K. lia.
  - intros dim id s ce p c b i HT HA HB HV. destruct (C19_round_trip_partial dim id s ce p c b HT HA HB i HV) as [(y & H1 & _) (z & H2 & _)].
    split; [exists y|exists z]; split; trivial.
Qed.
Print Assumptions C67_refuted.

(** a base and a Bravais lattice to which they apply *)
Example C67_case : base 3 (M3 1 0 0 0 1 0 0 0 1) /\ admissible Cubic [2] (mk_cell 2 2 2 90 90 90) /\ bravais_type 3 2 = Some (Cubic, F) /\
  (exists b, new_bravais 2 [2] 3 = Ok b) /\ valid_index 3 (One [1; 0; 0]).
Proof.
  destruct C17_cubic_F as [H1 H2]. split; [apply base3; lra|]. split; [exact H1|]. split; [exact H2|]. split.
  - destruct (C17_conventional_cell 3 2 Cubic F [2] _ H2 H1) as (b & H & _). now exists b.
  - split; [|exact I]. intros y [<-|[]]. reflexivity.
Qed.
