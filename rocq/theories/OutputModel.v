(** Model of the reporting loops: marttrans/lat_cor/main_hnf.py:275-290 and
    marttrans/lat_cor/main_direct.py:228-250.  la.eig is the argument [eig]; np.real is
    the identity on reals.  Integer matrices enter the products as reals (numpy upcasts). *)
From Verif Require Import LinAlg Spectral GroupModel.
From Verif Require Export Flat.
Local Open Scope R_scope.

Record output := { o_l : mat Z; o_cor : mat R; o_F : mat R; o_u : mat R; o_lams : list R }.

(** np.sort on a vector of reals *)
Fixpoint insert_R (x : R) (l : list R) : list R :=
  match l with
  | [] => [x]
  | y :: l' => if Rleb x y then x :: l else y :: insert_R x l'
  end.
Fixpoint sort_R (l : list R) : list R :=
  match l with [] => [] | x :: l' => insert_R x (sort_R l') end.

Section Report.
  Variable n : nat.
  Variables EA EM CA CM : mat R.
  Variable eig : mat R -> list R * mat R.

  (** main_hnf.py:279-290, main_direct.py:238-250.  [hl] is np.dot(sol['h'], sol['l']) (main_hnf)
      or sol['l'] (main_direct); [l] is the stored sol['l'].  F is not stored by the code; it is
      kept in the record so that the theorems can mention it. *)
  Definition report (l : mat Z) (hl : mat R) : res output :=
    let* CAi := inv CA in
    let cor := mmul (mmul CAi hl) CM in
    let* Hi := inv (mmul EA hl) in
    let F := mmul EM Hi in
    let C := mmul (tr F) F in
    let '(lam, V) := eig C in
    let lams := map sqrt lam in
    let* Vi := inv V in
    let U := mmul (mmul V (diag lams)) Vi in
    Ok {| o_l := l; o_cor := cor; o_F := F; o_u := U; o_lams := sort_R lams |}.

  (** main_hnf.py:276-290: chi is the identity (main_hnf.py:114), l = l.dot(chi) *)
  Definition report_hnf (h l : mat Z) : res output :=
    let l' := mmul l (eye n) in report l' (mmul (RZ h) (RZ l')).

  (** main_direct.py:230-236: the first equivalent correspondence with a positive determinant
      in the iteration order [eqls] of the set eqlatcor(l), else l itself *)
  Fixpoint pick_positive (l : mat Z) (eqls : list (list Z)) : mat Z :=
    match eqls with
    | [] => l
    | e :: eqls' => let L := reshape n e in if (0 <? det L)%Z then L else pick_positive l eqls'
    end.
  (** main_direct.py:228-250 *)
  Definition report_direct (l : list Z) (eqls : list (list Z)) : res output :=
    let L := pick_positive (reshape n l) eqls in report L (RZ L).
End Report.
