(** Model of marttrans/twin.py: TwinPair, TwinSystem and the module functions.  Floats are exact reals; la.eig is
    the argument [eig].  A TwinPair is a record with its caches; a method maps the object to its outcome and the
    object afterwards (also when it raises).  [npnew] says how numpy compares an array with None: old numpy
    answers False, since 1.13 the comparison is elementwise and "not array" raises ValueError.
    All matrix arguments are 3 x 3 float arrays. *)
From Verif Require Export RankOneModel MartModel.
Local Open Scope R_scope.

(** ** Module functions *)

(** np.max(np.abs(M)) *)
Definition max_abs (M : mat R) : R := fold_right Rmax 0 (map Rabs (concat M)).
(** twin.py:137-138 *)
Definition tol : R := 5 * (1 / 1000).
(** np.round(x, 10) of a number and of an array *)
Definition round10 (x : R) : R := IZR (rint (x * 10 ^ 10)) / 10 ^ 10.
Definition vround (v : vec R) : vec R := map round10 v.
(** v / r and v / w (elementwise); inf and nan are the outcome [NaN] *)
Definition vdiv (v : vec R) (r : R) : res (vec R) := if Reqb r 0 then Raise NaN else Ok (map (fun x => x / r) v).
Definition vdivv (v w : vec R) : res (vec R) := mapM (fun p => np_div (fst p) (snd p)) (combine v w).
Definition vmul (v w : vec R) : vec R := map (fun p => fst p * snd p) (combine v w).

Definition twin := (mat R * vec R * vec R)%type.            (* (Q, a, n) *)
Definition twin_a (t : twin) : vec R := snd (fst t).
Definition twin_n (t : twin) : vec R := snd t.

(** twin.py:404, 415: -np.eye(3) + 2*np.outer(ehat, ehat) *)
Definition R180 (ehat : vec R) : mat R := madd (mopp (eye 3)) (mscale 2 (outer ehat ehat)).

(** twin.py:508-519 *)
Definition isvariant (U V : mat R) : res bool :=
  let* lm := getvariants (new_mart (Some U) None) in
  Ok (existsb (fun u => Rltb (sqrt (fro2 3 3 (msub V u))) SMALL) (fst lm)).

Section Eig.
  Variable eig : mat R -> list R * mat R.
  Variable npnew : bool.

  (** twin.py:402-420: the two solutions, with V = uj; [None] when uj is not a variant *)
  Definition solvetwin_axis (U : mat R) (e : vec R) : res (option (twin * twin)) :=
    let* ehat := normalize e in
    let* Uinv := inv U in
    let R0 := R180 ehat in
    let uj := mmul (mmul R0 U) (tr R0) in
    let* v := isvariant U uj in
    if v then
      let denominator := dot (mvmul Uinv e) (mvmul Uinv e) in
      let* q := vdiv (mvmul Uinv e) denominator in
      let a1 := vscale 2 (vsub q (mvmul U e)) in
      let rho := vnorm e in
      let* n1 := vdiv e rho in
      let n1 := vround n1 in
      let a1 := vround (vscale rho a1) in
      let* uji := inv uj in
      let Q1 := mmul (madd U (outer a1 n1)) uji in
      let* q := vdiv (mvmul U (mvmul U e)) (dot (mvmul U e) (mvmul U e)) in
      let n2 := vscale 2 (vsub e q) in
      let a2 := mvmul U e in
      let rho := vnorm n2 in
      let* n2 := vdiv n2 rho in
      let n2 := vround n2 in
      let a2 := vround (vscale rho a2) in
      let Q2 := mmul (madd U (outer a2 n2)) uji in
      Ok (Some ((Q1, a1, n1), (Q2, a2, n2)))
    else Ok None.

  (** twin.py:421-431; unpacking None is a TypeError.  rho1, rho2 are arrays, not norms. *)
  Definition solvetwin_none (U Uj : mat R) : res (option (twin * twin)) :=
    let* Ui := inv U in
    let cmix := mmul (mmul Ui Uj) (mmul Uj Ui) in
    let* s := solve_am eig cmix in
    match s with
    | None => Raise TypeError
    | Some ((Q1, ha1, hn1), (Q2, ha2, hn2)) =>
      let rho1 := mvmul (tr U) hn1 in
      let rho2 := mvmul (tr U) hn2 in
      let* n1 := vdivv (mvmul (tr U) hn1) rho1 in
      let a1 := vmul rho1 ha1 in
      let* n2 := vdivv (mvmul (tr U) hn2) rho2 in
      let a2 := vmul rho2 ha2 in
      Ok (Some ((Q1, a1, n1), (Q2, a2, n2)))
    end.

  (** twin.py:395-431 *)
  Definition solvetwin (U Uj : mat R) (e : option (vec R)) : res (option (twin * twin)) :=
    match e with
    | Some e => if npnew then Raise ValueError else solvetwin_axis U e
    | None => solvetwin_none U Uj
    end.

  (** twin.py:433-456; [None] is Python's None *)
  Definition solve_f (U : mat R) (a n : vec R) : res (option R) :=
    let A := msub (mmul U U) (eye 3) in
    let cofU := brute_cof A in
    let minus_alpha := 2 * dot (mvmul U a) (mvmul cofU n) in
    let beta := det (msub (mmul U U) (eye 3)) + minus_alpha / 4 in
    if Rltb (Rabs minus_alpha) SMALL then Ok (Some 0)
    else if Rltb 0 (beta / minus_alpha) then
      let* s := math_sqrt (beta / minus_alpha) in
      let f := 1 / 2 + s in
      if Rltb (Rabs (1 - f)) (1 / 1000000) then Ok (Some 1)
      else if Rltb (Rabs f) (1 / 1000000) then Ok (Some 0)
      else if Rltb 0 f && Rltb f 1 then Ok (Some f)
      else Ok None
    else Ok None.

  (** ** TwinPair *)
  Record tp := {
    p_Ui : mat R; p_Uj : mat R;
    p_e : list R; p_v : mat R;
    p_twinnable : bool;
    p_conventional : option bool;
    p_ax : option (list (vec R));
    p_XI : option R; p_XII : option R;
    p_twinparam : option (twin * twin)
  }.
  Definition st A := tp -> res A * tp.
  Definition ret {A} (a : A) : st A := fun p => (Ok a, p).
  Definition lift {A} (r : res A) : st A := fun p => (r, p).
  Definition bindS {A B} (m : st A) (f : A -> st B) : st B := fun p =>
    match m p with
    | (Ok a, p') => f a p'
    | (Raise e, p') => (Raise e, p')
    | (NoFuel, p') => (NoFuel, p')
    end.
  Notation "'let!' x := m 'in' k" := (bindS m (fun x => k))
    (at level 200, x pattern, m at level 100, k at level 200, right associativity).

  (** twin.py:179-188, from the fields it reads *)
  Definition twinnable (Ui Uj : mat R) (e : list R) : bool :=
    if Rltb (max_abs (msub Ui Uj)) SMALL then false else Rltb (Rabs (vget e 1 - 1)) tol.
  Definition istwinnable (p : tp) : bool := twinnable (p_Ui p) (p_Uj p) (p_e p).

  (** twin.py:140-159 *)
  Definition new_pair (skipcheck : bool) (Ui Uj : mat R) : res tp :=
    if negb skipcheck && (negb (pos_def_sym Ui) || negb (pos_def_sym Uj)) then Raise ValueError
    else
      let* Uiinv := inv Ui in
      let C := mmul (mmul Uiinv Uj) (mmul Uj Uiinv) in
      let '(e, v) := sort_eig (eig C) in
      Ok {| p_Ui := Ui; p_Uj := Uj; p_e := e; p_v := v; p_twinnable := twinnable Ui Uj e;
            p_conventional := None; p_ax := None; p_XI := None; p_XII := None; p_twinparam := None |}.

  (** assignments to the cached fields *)
  Definition set_conventional b p := {| p_Ui := p_Ui p; p_Uj := p_Uj p; p_e := p_e p; p_v := p_v p;
    p_twinnable := p_twinnable p; p_conventional := Some b; p_ax := p_ax p; p_XI := p_XI p; p_XII := p_XII p;
    p_twinparam := p_twinparam p |}.
  Definition set_ax a p := {| p_Ui := p_Ui p; p_Uj := p_Uj p; p_e := p_e p; p_v := p_v p;
    p_twinnable := p_twinnable p; p_conventional := p_conventional p; p_ax := Some a; p_XI := p_XI p; p_XII := p_XII p;
    p_twinparam := p_twinparam p |}.
  Definition set_XI x p := {| p_Ui := p_Ui p; p_Uj := p_Uj p; p_e := p_e p; p_v := p_v p;
    p_twinnable := p_twinnable p; p_conventional := p_conventional p; p_ax := p_ax p; p_XI := Some x; p_XII := p_XII p;
    p_twinparam := p_twinparam p |}.
  Definition set_XII x p := {| p_Ui := p_Ui p; p_Uj := p_Uj p; p_e := p_e p; p_v := p_v p;
    p_twinnable := p_twinnable p; p_conventional := p_conventional p; p_ax := p_ax p; p_XI := p_XI p; p_XII := Some x;
    p_twinparam := p_twinparam p |}.
  Definition set_twinparam t p := {| p_Ui := p_Ui p; p_Uj := p_Uj p; p_e := p_e p; p_v := p_v p;
    p_twinnable := p_twinnable p; p_conventional := p_conventional p; p_ax := p_ax p; p_XI := p_XI p; p_XII := p_XII p;
    p_twinparam := t |}.

  (** twin.py:190-205; [None] is a call without argument *)
  Definition isconventional (lauegroup : option (list (mat R))) : st bool := fun p =>
    match p_conventional p with
    | Some b => (Ok b, p)
    | None =>
      if negb (p_twinnable p) then (Ok false, p)
      else
        let twofold := match lauegroup with
                       | None => firstn 9 (skipn 1 (map RZ CUBIC_LAUE_GROUP))
                       | Some g => g
                       end in
        let b := existsb (fun Q => Rltb (max_abs (msub (mmul (mmul Q (p_Ui p)) (tr Q)) (p_Uj p))) SMALL) twofold in
        (Ok b, set_conventional b p)
    end.

  (** twin.py:222-229: the loop over s *)
  Fixpoint ax_loop (U v : mat R) (e : list R) (A11 A23 A13 A21 : R) (ss : list R) : res (list (vec R)) :=
    match ss with
    | [] => Ok []
    | s :: ss' =>
      let* r := math_sqrt (vget e 2) in
      if Rltb (Rabs (s * r * A23 + A21)) SMALL then
        let* del1 := math_sqrt (2 * (A11 + s * r * A13)) in
        let del3 := s * r * del1 in
        let x := vadd (vscale del1 (mvmul U (nth 0 v []))) (vscale del3 (mvmul U (nth 2 v []))) in
        let* x := normalize x in
        let* l := ax_loop U v e A11 A23 A13 A21 ss' in
        Ok (x :: l)
      else ax_loop U v e A11 A23 A13 A21 ss'
    end.
  (** twin.py:216-229 *)
  Definition axes (U v : mat R) (e : list R) : res (list (vec R)) :=
    let As := mmul U U in
    let v0 := nth 0 v [] in let v1 := nth 1 v [] in let v2 := nth 2 v [] in
    ax_loop U v e (dot v0 (mvmul As v0)) (dot v1 (mvmul As v2)) (dot v2 (mvmul As v0)) (dot v1 (mvmul As v0)) [-1; 1].
  (** twin.py:207-231 *)
  Definition ax : st (list (vec R)) := fun p =>
    match p_ax p with
    | Some a => (Ok a, p)
    | None =>
      if negb (istwinnable p) then (Raise AttributeError, p)
      else match axes (p_Ui p) (p_v p) (p_e p) with
           | Ok a => (Ok a, set_ax a p)
           | Raise e => (Raise e, p)
           | NoFuel => (NoFuel, p)
           end
    end.

  (** twin.py:234-252 *)
  Definition iscompound : st bool := let! a := ax in ret (1 <? length a)%nat.
  Definition istypeI : st bool := let! b := iscompound in ret (negb b).
  Definition istypeII : st bool := let! b := iscompound in ret (negb b).

  (** twin.py:255-265 *)
  Definition XI : st R :=
    let! c := iscompound in
    if c then lift (Raise AttributeError) else
    fun p => match p_XI p with
             | Some x => (Ok x, p)
             | None => (let! a := ax in
                        let! t := lift (py_index a 0) in
                        let! Ui := lift (inv (p_Ui p)) in
                        fun p => (Ok (vnorm (mvmul Ui t)), set_XI (vnorm (mvmul Ui t)) p)) p
             end.
  (** twin.py:267-277 *)
  Definition XII : st R :=
    let! c := iscompound in
    if c then lift (Raise AttributeError) else
    fun p => match p_XII p with
             | Some x => (Ok x, p)
             | None => (let! a := ax in
                        let! t := lift (py_index a 0) in
                        fun p => (Ok (vnorm (mvmul (p_Ui p) t)), set_XII (vnorm (mvmul (p_Ui p) t)) p)) p
             end.

  (** twin.py:293-309; the result None of _solvetwin is not cached *)
  Definition twinparam : st (option (twin * twin)) := fun p =>
    if negb (istwinnable p) then (Raise AttributeError, p)
    else match p_twinparam p with
         | Some t => (Ok (Some t), p)
         | None =>
           (let! a := ax in
            let e := match a with [] => None | x :: _ => Some x end in
            let! t := lift (solvetwin (p_Ui p) (p_Uj p) e) in
            fun p => (Ok t, set_twinparam t p)) p
         end.
  (** subscripting or unpacking the result: None is a TypeError *)
  Definition some_param : st (twin * twin) :=
    let! t := twinparam in match t with Some t => ret t | None => lift (Raise TypeError) end.

  (** twin.py:279-290 *)
  Definition direct_cof : st (R * R) := fun p =>
    (let! t := some_param in
     let U := p_Ui p in
     let A := msub (mmul U U) (eye 3) in
     let cofU := brute_cof A in
     ret (- dot (mvmul U (twin_a (fst t))) (mvmul cofU (twin_n (fst t))),
          - dot (mvmul U (twin_a (snd t))) (mvmul cofU (twin_n (snd t))))) p.

  (** twin.py:329-348.  The result is a tuple of tuples, which never equals None; twinparam is cached after the
      first of the four calls.  The fields __fI, __fII are written but never read, and are left out. *)
  Definition volumefrac : st (option R * option R) := fun p =>
    (let! t := some_param in
     let! fI := lift (solve_f (p_Ui p) (twin_a (fst t)) (twin_n (fst t))) in
     let! fII := lift (solve_f (p_Ui p) (twin_a (snd t)) (twin_n (snd t))) in
     ret (fI, fII)) p.

  Definition some {A} (o : option A) : bool := match o with Some _ => true | None => false end.
  (** the argument twintype *)
  Inductive ttype := TI | TII | TC | TOther.
  (** twin.py:311-323; the right operand of "or" is evaluated only if needed *)
  Definition iscompatible (t : ttype) : st bool :=
    match t with
    | TOther => lift (Raise ValueError)
    | TI => let! f := volumefrac in ret (some (fst f))
    | TII => let! f := volumefrac in ret (some (snd f))
    | TC => let! f := volumefrac in
            if some (fst f) then ret true else let! f := volumefrac in ret (some (snd f))
    end.

  (** twin.py:367-373: the body of the loop.  None * array is a TypeError, and so is extending by None. *)
  Definition habit (U : mat R) (t : twin) (f : option R) : res (list twin) :=
    match f with
    | None => Raise TypeError
    | Some f =>
      let F0 := madd U (mscale f (outer (twin_a t) (twin_n t))) in
      let F1 := madd U (mscale (1 - f) (outer (twin_a t) (twin_n t))) in
      let* h0 := solve_am eig (mmul (tr F0) F0) in
      let* l0 := match h0 with Some (x, y) => Ok [x; y] | None => Raise TypeError end in
      let* h1 := solve_am eig (mmul (tr F1) F1) in
      let* l1 := match h1 with Some (x, y) => Ok [x; y] | None => Raise TypeError end in
      Ok (l0 ++ l1)
    end.
  (** twin.py:350-376; apart from the check twintype is not used *)
  Definition habitplanes (t : ttype) : st (list twin) :=
    match t with
    | TOther => lift (Raise ValueError)
    | _ =>
      let! c := iscompatible TC in
      if negb c then lift (Raise AttributeError) else
      let! tpar := some_param in
      let! fs := volumefrac in
      fun p => (let* h0 := habit (p_Ui p) (fst tpar) (fst fs) in
                let* h1 := habit (p_Ui p) (snd tpar) (snd fs) in
                Ok (h0 ++ h1), p)
    end.

  (** ** TwinSystem *)
  Record ts := {
    s_Ulist : list (mat R);
    s_Laue : option (list (mat R));                        (* None: the attribute was never set *)
    s_table : option (list (nat * nat));
    s_pairs : option (list tp)
  }.
  Definition fresh_system U L := {| s_Ulist := U; s_Laue := L; s_table := None; s_pairs := None |}.
  (** twin.py:13-34: TwinSystem(m), TwinSystem(Ulist), TwinSystem(Ulist, G) with G a MatrixGroup or something else *)
  Definition system_of_mart (m : mart) : res ts :=
    let* lm := getvariants m in Ok (fresh_system (fst lm) (Some (map RZ CUBIC_LAUE_GROUP))).
  Definition system_of_list (U : list (mat R)) : ts := fresh_system U (Some (map RZ CUBIC_LAUE_GROUP)).
  Definition system_of_list2 (U : list (mat R)) (G : option (list (mat R))) : ts := fresh_system U G.

  (** twin.py:51-52 *)
  Definition Laue (s : ts) : res (list (mat R)) := match s_Laue s with Some g => Ok g | None => Raise AttributeError end.

  (** twin.py:60-61: the index pairs in the order of the two loops *)
  Definition index_pairs (N : nat) : list (nat * nat) :=
    flat_map (fun i => map (fun j => (i, j)) (seq (i + 1) (N - (i + 1)))) (seq 0 (N - 1)).
  (** twin.py:60-65: the two lists grow in place, so they keep what was found when TwinPair raises *)
  Fixpoint table_loop (U : list (mat R)) (idx : list (nat * nat)) (tab : list (nat * nat)) (prs : list tp)
    : res unit * (list (nat * nat) * list tp) :=
    match idx with
    | [] => (Ok tt, (tab, prs))
    | (i, j) :: idx' =>
      match new_pair true (nth i U []) (nth j U []) with
      | Ok p => if istwinnable p then table_loop U idx' (tab ++ [(i, j)]) (prs ++ [p])
                else table_loop U idx' tab prs
      | Raise e => (Raise e, (tab, prs))
      | NoFuel => (NoFuel, (tab, prs))
      end
    end.
  Definition set_lists s tab prs := {| s_Ulist := s_Ulist s; s_Laue := s_Laue s; s_table := Some tab; s_pairs := Some prs |}.
  (** twin.py:54-67 *)
  Definition TwinTable (s : ts) : res (list (nat * nat)) * ts :=
    match s_table s with
    | Some t => (Ok t, s)
    | None =>
      let '(r, (tab, prs)) := table_loop (s_Ulist s) (index_pairs (length (s_Ulist s))) [] [] in
      (let* _ := r in Ok tab, set_lists s tab prs)
    end.
  (** "if self.__twinpairs is None: self.TwinTable()", then self.__twinpairs: twin.py:87-89, 97-98, 108-109, 118-119 *)
  Definition getTwinpairs (s : ts) : res (list tp) * ts :=
    match s_pairs s with
    | Some p => (Ok p, s)
    | None => match TwinTable s with
              | (Ok _, s') => (match s_pairs s' with Some p => Ok p | None => Raise TypeError end, s')
              | (Raise e, s') => (Raise e, s')
              | (NoFuel, s') => (NoFuel, s')
              end
    end.
  (** [i for i in xrange(len(l)) if f(l[i])], where f may change the objects *)
  Fixpoint sweep (f : st bool) (i : nat) (l : list tp) : res (list nat) * list tp :=
    match l with
    | [] => (Ok [], [])
    | p :: l' =>
      match f p with
      | (Ok b, p') => let '(r, l'') := sweep f (S i) l' in
                      (let* t := r in Ok (if b then i :: t else t), p' :: l'')
      | (Raise e, p') => (Raise e, p' :: l')
      | (NoFuel, p') => (NoFuel, p' :: l')
      end
    end.
  Definition set_pairs s prs := {| s_Ulist := s_Ulist s; s_Laue := s_Laue s; s_table := s_table s; s_pairs := Some prs |}.
  Definition select (f : st bool) (s : ts) : res (list nat) * ts :=
    match getTwinpairs s with
    | (Ok l, s') => let '(r, l') := sweep f 0 l in (r, set_pairs s' l')
    | (Raise e, s') => (Raise e, s')
    | (NoFuel, s') => (NoFuel, s')
    end.
  (** twin.py:91-100; self.Laue() is evaluated for each pair *)
  Definition getConventional (s : ts) : res (list nat) * ts :=
    select (let! g := lift (Laue s) in isconventional (Some g)) s.
  (** twin.py:102-110, 112-120, 122-128 *)
  Definition getCompound : ts -> res (list nat) * ts := select iscompound.
  Definition getTypeI : ts -> res (list nat) * ts := select istypeI.
  Definition getTypeII : ts -> res (list nat) * ts := getTypeI.

  (** ** Histories *)
  (** a call of a method of a TwinPair object, whatever it returns or raises *)
  Inductive pair_op :=
  | PTwinnable | PConventional (g : option (list (mat R))) | PAx | PCompound | PTypeI | PXI | PXII | PDirect
  | PTwinparam | PCompatible (t : ttype) | PVolume | PHabit (t : ttype).
  Definition pair_step (o : pair_op) (p : tp) : tp :=
    match o with
    | PTwinnable => p
    | PConventional g => snd (isconventional g p)
    | PAx => snd (ax p)
    | PCompound => snd (iscompound p)
    | PTypeI => snd (istypeI p)
    | PXI => snd (XI p)
    | PXII => snd (XII p)
    | PDirect => snd (direct_cof p)
    | PTwinparam => snd (twinparam p)
    | PCompatible t => snd (iscompatible t p)
    | PVolume => snd (volumefrac p)
    | PHabit t => snd (habitplanes t p)
    end.
  Definition pair_run (h : list pair_op) (p : tp) : tp := fold_left (fun p o => pair_step o p) h p.

  (** a call of a method of a TwinSystem, or of a method of the k-th object of the list getTwinpairs returned *)
  Inductive sys_op := STable | SPairs | SConventional | SCompound | STypeI | STypeII | SPair (k : nat) (o : pair_op).
  Fixpoint update {A} (k : nat) (f : A -> A) (l : list A) : list A :=
    match l, k with
    | [], _ => []
    | x :: l', 0%nat => f x :: l'
    | x :: l', S k' => x :: update k' f l'
    end.
  Definition sys_step (o : sys_op) (s : ts) : ts :=
    match o with
    | STable => snd (TwinTable s)
    | SPairs => snd (getTwinpairs s)
    | SConventional => snd (getConventional s)
    | SCompound => snd (getCompound s)
    | STypeI => snd (getTypeI s)
    | STypeII => snd (getTypeII s)
    | SPair k o => match s_pairs s with
                   | Some l => set_pairs s (update k (pair_step o) l)
                   | None => s
                   end
    end.
  Definition sys_run (h : list sys_op) (s : ts) : ts := fold_left (fun s o => sys_step o s) h s.
End Eig.
