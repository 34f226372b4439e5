(** Deprecated methods of Lattice and BravaisLattice.  The warning they print is not modelled. *)
From Verif Require Export LatticeModel BravaisModel.
Local Open Scope R_scope.

(** lattice.py:41-43, 109-111, 132-134, 150-152 *)
Definition getbase (E : mat R) : mat R := E.
Definition getLauegroup (E : mat R) := Laue_group E.
Definition getpointgroup (E : mat R) := point_group E.
Definition getspeciallatticegroup (E : mat R) := special_lattice_group E.
(** lattice.py:168-170: calls special_lattice_group *)
Definition getlatticegroup (E : mat R) := special_lattice_group E.
(** bravais_lattice.py:290-292, 300-302, 313-315, 323-325 *)
Definition getLatID (b : bravais) : Z := b_id b.
Definition getLatParam (b : bravais) : list R := b_par b.
Definition getConventionalTrans (b : bravais) : mat R := conventional_trans b.
Definition getConventionalBase (b : bravais) : mat R := conventional_base b.
(** bravais_lattice.py:349-351: calls to_primitive, which does not exist *)
Definition toPrimitive (b : bravais) (i : index_arg) : res index_arg := Raise AttributeError.
(** bravais_lattice.py:376-378: calls to_conventional_Miller without its argument *)
Definition toConventional (b : bravais) (i : index_arg) : res index_arg := Raise TypeError.
