(** * One full 2D MHD time step, all three implementation versions *)
From Coq Require Import ZArith List Bool Lia ZifyBool Permutation Reals Lra.
Import ListNotations.
From Verif Require Import Num Exec ExecFacts Grid GridFacts Boundaries BoundariesSpec
  BoundariesFacts BoundariesFill BoundariesNarrow HydroNum Kernels KernelFacts Atomics
  Hydro2D Hydro2DSpec Hydro2DFacts Hydro2DStep MhdNum Mhd2D Mhd2DSpec MhdFacts Mhd2DFacts.
Local Open Scope Z_scope.

Lemma mvars2_six v : 0 <= v < 8 -> (In v mvars2 <-> six v).
Proof. unfold mvars2, six, ID, IP, IU, IV, IW, IA, IB, IC. simpl. lia. Qed.

Definition sixb (v : Z) : bool := negb (v =? IA) && negb (v =? IB).
Lemma sixb_six v : 0 <= v < 8 -> (six v <-> sixb v = true).
Proof. unfold six, sixb, IA, IB. lia. Qed.

(** ** Kernels of atomic updates on [aout] *)
Section AtomicKernels.
Context {T : Type} {N : Num T}.
Variable m : mesh.
Variable S : hset T.
Variable dt : T.
Variable inb : extents.
Variable aout : arr.
Hypothesis Hgw : 1 <= gw m.

Definition atomic_only (p : prog T) : Prop :=
  foot (fun l => la l <> aout) nowhere (fun l => la l = aout) p.

Lemma at_loc_mvars2 i j v i' j' (F : Z -> T -> T) (b : bool) : 0 <= v < 8 ->
  at_loc (L2 aout i j v) (map (fun v => (L2 aout i' j' v, F v)) (if b then mvars2 else [])) =
  if b && ((i' =? i) && (j' =? j)) && sixb v then [F v] else [].
Proof.
  intros Hv. destruct b; [|reflexivity]. cbn [andb].
  assert (Hl : forall v', (if loc_eq_dec (L2 aout i' j' v') (L2 aout i j v) then true else false) =
     ((i' =? i) && (j' =? j)) && (v' =? v)).
  { intros v'. destruct (loc_eq_dec _ _) as [E|E].
    - inversion E. subst. lia.
    - symmetry. apply not_true_is_false. intros H. apply E. unfold L2. f_equal; lia. }
  unfold at_loc, mvars2. cbn [map filter fst snd]. rewrite !Hl. unfold ID, IP, IU, IV, IW, IC.
  destruct ((i' =? i) && (j' =? j)); cbn [andb];
  destruct (eight v Hv) as [->|[->|[->|[->|[->|[->|[->| ->]]]]]]]; reflexivity.
Qed.

Lemma at_loc_one i j v i' j' v' (f : T -> T) L :
  at_loc (L2 aout i j v) ((L2 aout i' j' v', f) :: L) =
  (if (i' =? i) && (j' =? j) && (v' =? v) then [f] else []) ++ at_loc (L2 aout i j v) L.
Proof.
  unfold at_loc. cbn [filter fst]. destruct (loc_eq_dec _ _) as [E|E].
  - inversion E; subst. rewrite !Z.eqb_refl. reflexivity.
  - replace (_ && _) with false; [reflexivity|]. symmetry. apply not_true_is_false. intros H.
    apply E. unfold L2. f_equal; lia.
Qed.

Section One.
Variable body : Z * Z -> prog T.
Variables s s' : store T.
Hypothesis Hfoot : forall c, atomic_only (body c).
Hypothesis Hex : exec inb s (map body (cells2 m)) s'.

Lemma ak_frame l : la l <> aout -> s' l = s l.
Proof.
  refine (proj1 (atomic_exec (fun l => la l <> aout) (fun l => la l = aout) _ inb s _ s' _ Hex) l).
  - intros; auto.
  - apply Forall_forall. intros p Hp. apply in_map_iff in Hp. destruct Hp as (c & <- & _). apply Hfoot.
Qed.

Lemma ak_pick l picks : NoDup picks -> incl picks (cells2 m) ->
  (forall c, In c (cells2 m) -> ~ In c picks -> at_loc l (effects (body c) s) = []) ->
  exists ops, Permutation ops (concat (map (fun c => at_loc l (effects (body c) s)) picks)) /\
    s' l = fold_left (fun x f => f x) ops (s l).
Proof.
  intros Hn Hi H0.
  destruct (atomic_exec_at (fun l => la l <> aout) (fun l => la l = aout) inb s body (cells2 m) s' l
    (fun l H => H) (fun c _ => Hfoot c) Hex) as (ops & HP & E).
  exists ops. split; auto. etransitivity; [exact HP|]. apply concat_pick; auto. apply nodup_range2.
Qed.

Lemma ak_none l : (forall c, In c (cells2 m) -> at_loc l (effects (body c) s) = []) -> s' l = s l.
Proof.
  intros H0. destruct (ak_pick l []) as (ops & HP & E); auto.
  - constructor.
  - intros c [].
  - apply Permutation_sym, Permutation_nil in HP. subst. exact E.
Qed.

(** Which kind of updates each item issues. *)
Definition issues (upds : Z -> Z -> prog T) : Prop :=
  forall c1 c2, effects (body (c1, c2)) s =
    if upto_face2 m c1 c2 then effects (upds c1 c2) s else [].

Lemma at_fx i j v c1 c2 f k : phys2 m i j -> six v -> upto_face2 m c1 c2 = true ->
  at_loc (L2 aout i j v) (effects (mflux_x_updates m S dt aout c1 c2 f k) s) =
  (if (c1 =? i) && (c2 =? j) then [fun x => nadd x (nmul (mget f v) (ndiv dt (dx S)))] else []) ++
  (if (c1 =? i + 1) && (c2 =? j) then [fun x => nsub x (nmul (mget f v) (ndiv dt (dx S)))] else []) ++
  at_loc (L2 aout i j v) (effects k s).
Proof.
  intros [Hi Hj] Hv HG. unfold physical in *. unfold mflux_x_updates.
  rewrite !effects_matomics, !at_loc_app, !at_loc_mvars2 by apply Hv.
  replace (sixb v) with true by (symmetry; apply sixb_six; [apply Hv|auto]).
  unfold upto_face2, isize, jsize in *.
  rewrite !mget_mscale by apply Hv. rewrite !andb_true_r.
  f_equal; [|f_equal].
  - destruct ((c1 =? i) && (c2 =? j)) eqn:E; [|rewrite andb_false_r; reflexivity].
    replace (_ && _) with true by lia. reflexivity.
  - destruct ((c1 =? i + 1) && (c2 =? j)) eqn:E.
    + replace (_ && _) with true by lia. reflexivity.
    + replace (_ && _) with false by lia. reflexivity.
Qed.

Lemma at_fy i j v c1 c2 f k : phys2 m i j -> six v -> upto_face2 m c1 c2 = true ->
  at_loc (L2 aout i j v) (effects (mflux_y_updates m S dt aout c1 c2 f k) s) =
  (if (c1 =? i) && (c2 =? j) then [fun x => nadd x (nmul (mget f v) (ndiv dt (dy S)))] else []) ++
  (if (c1 =? i) && (c2 =? j + 1) then [fun x => nsub x (nmul (mget f v) (ndiv dt (dy S)))] else []) ++
  at_loc (L2 aout i j v) (effects k s).
Proof.
  intros [Hi Hj] Hv HG. unfold physical in *. unfold mflux_y_updates.
  rewrite !effects_matomics, !at_loc_app, !at_loc_mvars2 by apply Hv.
  replace (sixb v) with true by (symmetry; apply sixb_six; [apply Hv|auto]).
  unfold upto_face2, isize, jsize in *.
  rewrite !mget_mscale by apply Hv. rewrite !andb_true_r.
  f_equal; [|f_equal].
  - destruct ((c1 =? i) && (c2 =? j)) eqn:E; [|rewrite andb_false_r; reflexivity].
    replace (_ && _) with true by lia. reflexivity.
  - destruct ((c1 =? i) && (c2 =? j + 1)) eqn:E.
    + replace (_ && _) with true by lia. reflexivity.
    + replace (_ && _) with false by lia. reflexivity.
Qed.

Lemma at_fx_none i j v c1 c2 f k : 0 <= v < 8 -> cell2 m i j -> ~ (phys2 m i j /\ six v) ->
  upto_face2 m c1 c2 = true ->
  at_loc (L2 aout i j v) (effects (mflux_x_updates m S dt aout c1 c2 f k) s) =
  at_loc (L2 aout i j v) (effects k s).
Proof.
  intros Hv Hc Hp HG. unfold mflux_x_updates.
  rewrite !effects_matomics, !at_loc_app, !at_loc_mvars2 by apply Hv.
  rewrite (sixb_six v Hv) in Hp. unfold phys2, physical, cell2 in *. unfold upto_face2, isize, jsize in *.
  repeat match goal with |- context [if ?b then _ else _] => replace b with false by (symmetry; lia) end.
  reflexivity.
Qed.

Lemma at_fy_none i j v c1 c2 f k : 0 <= v < 8 -> cell2 m i j -> ~ (phys2 m i j /\ six v) ->
  upto_face2 m c1 c2 = true ->
  at_loc (L2 aout i j v) (effects (mflux_y_updates m S dt aout c1 c2 f k) s) =
  at_loc (L2 aout i j v) (effects k s).
Proof.
  intros Hv Hc Hp HG. unfold mflux_y_updates.
  rewrite !effects_matomics, !at_loc_app, !at_loc_mvars2 by apply Hv.
  rewrite (sixb_six v Hv) in Hp. unfold phys2, physical, cell2 in *. unfold upto_face2, isize, jsize in *.
  repeat match goal with |- context [if ?b then _ else _] => replace b with false by (symmetry; lia) end.
  reflexivity.
Qed.

Lemma three_cells i j : phys2 m i j ->
  NoDup [(i, j); (i + 1, j); (i, j + 1)] /\ incl [(i, j); (i + 1, j); (i, j + 1)] (cells2 m).
Proof.
  intros [Hi Hj]. unfold physical in *. split.
  - assert (N1 : (i + 1, j) <> (i, j)) by (intros E1; inversion E1; lia).
    assert (N2 : (i, j + 1) <> (i, j)) by (intros E1; inversion E1; lia).
    assert (N3 : (i, j + 1) <> (i + 1, j)) by (intros E1; inversion E1; lia).
    constructor; [simpl; intuition congruence|]. constructor; [simpl; intuition congruence|].
    constructor; [simpl; tauto|constructor].
  - intros [c1 c2] Hc. apply in_range2. unfold isize, jsize.
    simpl in Hc. destruct Hc as [E1|[E1|[E1|[]]]]; inversion E1; subst; lia.
Qed.

Lemma upto_phys i j : phys2 m i j ->
  upto_face2 m i j = true /\ upto_face2 m (i + 1) j = true /\ upto_face2 m i (j + 1) = true.
Proof. unfold phys2, physical, upto_face2, isize, jsize. intros. lia. Qed.

Lemma not_picked (c1 c2 i j : Z) : ~ In (c1, c2) [(i, j); (i + 1, j); (i, j + 1)] ->
  (c1 =? i) && (c2 =? j) = false /\ (c1 =? i + 1) && (c2 =? j) = false /\
  (c1 =? i) && (c2 =? j + 1) = false.
Proof.
  intros Hn. simpl in Hn. repeat split; apply not_true_is_false; intros E; apply Hn;
  [left|right; left|right; right; left]; f_equal; lia.
Qed.

(** Items issuing the x and y flux updates together. *)
Lemma ak_flux fx fy :
  issues (fun c1 c2 => mflux_x_updates m S dt aout c1 c2 (fx c1 c2)
                        (mflux_y_updates m S dt aout c1 c2 (fy c1 c2) Done)) ->
  (forall i j v, phys2 m i j -> six v ->
     exists ops, Permutation ops
       [ (fun y => nadd y (nmul (mget (fx i j) v) (ndiv dt (dx S))));
         (fun y => nsub y (nmul (mget (fx (i + 1) j) v) (ndiv dt (dx S))));
         (fun y => nadd y (nmul (mget (fy i j) v) (ndiv dt (dy S))));
         (fun y => nsub y (nmul (mget (fy i (j + 1)) v) (ndiv dt (dy S)))) ] /\
       s' (L2 aout i j v) = fold_left (fun y f => f y) ops (s (L2 aout i j v))) /\
  (forall i j v, 0 <= v < 8 -> cell2 m i j -> ~ (phys2 m i j /\ six v) ->
     s' (L2 aout i j v) = s (L2 aout i j v)).
Proof.
  intros His. split.
  - intros i j v Hp Hv. destruct (three_cells i j Hp) as [T1 T2].
    destruct (upto_phys i j Hp) as (P1 & P2 & P3).
    destruct (ak_pick (L2 aout i j v) _ T1 T2) as (ops & HP & E).
    { intros [c1 c2] Hc Hn. rewrite His. destruct (upto_face2 m c1 c2) eqn:HG; [|reflexivity].
      rewrite at_fx, at_fy by auto. destruct (not_picked _ _ _ _ Hn) as (-> & -> & ->). reflexivity. }
    exists ops. split; auto. etransitivity; [exact HP|]. cbn [map concat].
    rewrite !His, P1, P2, P3. rewrite !at_fx, !at_fy by auto. cbn [effects].
    rewrite !Z.eqb_refl. replace (i + 1 =? i) with false by lia.
    replace (j + 1 =? j) with false by lia. replace (i =? i + 1) with false by lia.
    replace (j =? j + 1) with false by lia.
    cbn [andb app at_loc filter map]. constructor. apply perm_swap.
  - intros i j v Hv Hc Hn. apply ak_none. intros [c1 c2] _. rewrite His.
    destruct (upto_face2 m c1 c2) eqn:HG; [|reflexivity].
    rewrite at_fx_none, at_fy_none by auto. reflexivity.
Qed.

Lemma ak_flux_x fx :
  issues (fun c1 c2 => mflux_x_updates m S dt aout c1 c2 (fx c1 c2) Done) ->
  (forall i j v, phys2 m i j -> six v ->
     exists ops, Permutation ops
       [ (fun y => nadd y (nmul (mget (fx i j) v) (ndiv dt (dx S))));
         (fun y => nsub y (nmul (mget (fx (i + 1) j) v) (ndiv dt (dx S)))) ] /\
       s' (L2 aout i j v) = fold_left (fun y f => f y) ops (s (L2 aout i j v))) /\
  (forall i j v, 0 <= v < 8 -> cell2 m i j -> ~ (phys2 m i j /\ six v) ->
     s' (L2 aout i j v) = s (L2 aout i j v)).
Proof.
  intros His. split.
  - intros i j v Hp Hv. destruct (three_cells i j Hp) as [T1 T2].
    destruct (upto_phys i j Hp) as (P1 & P2 & P3).
    destruct (ak_pick (L2 aout i j v) _ T1 T2) as (ops & HP & E).
    { intros [c1 c2] Hc Hn. rewrite His. destruct (upto_face2 m c1 c2) eqn:HG; [|reflexivity].
      rewrite at_fx by auto. destruct (not_picked _ _ _ _ Hn) as (-> & -> & _). reflexivity. }
    exists ops. split; auto. etransitivity; [exact HP|]. cbn [map concat].
    rewrite !His, P1, P2, P3. rewrite !at_fx by auto. cbn [effects].
    rewrite !Z.eqb_refl. replace (i + 1 =? i) with false by lia.
    replace (j + 1 =? j) with false by lia. replace (i =? i + 1) with false by lia.
    cbn [andb app at_loc filter map]. reflexivity.
  - intros i j v Hv Hc Hn. apply ak_none. intros [c1 c2] _. rewrite His.
    destruct (upto_face2 m c1 c2) eqn:HG; [|reflexivity].
    rewrite at_fx_none by auto. reflexivity.
Qed.

Lemma ak_flux_y fy :
  issues (fun c1 c2 => mflux_y_updates m S dt aout c1 c2 (fy c1 c2) Done) ->
  (forall i j v, phys2 m i j -> six v ->
     exists ops, Permutation ops
       [ (fun y => nadd y (nmul (mget (fy i j) v) (ndiv dt (dy S))));
         (fun y => nsub y (nmul (mget (fy i (j + 1)) v) (ndiv dt (dy S)))) ] /\
       s' (L2 aout i j v) = fold_left (fun y f => f y) ops (s (L2 aout i j v))) /\
  (forall i j v, 0 <= v < 8 -> cell2 m i j -> ~ (phys2 m i j /\ six v) ->
     s' (L2 aout i j v) = s (L2 aout i j v)).
Proof.
  intros His. split.
  - intros i j v Hp Hv. destruct (three_cells i j Hp) as [T1 T2].
    destruct (upto_phys i j Hp) as (P1 & P2 & P3).
    destruct (ak_pick (L2 aout i j v) _ T1 T2) as (ops & HP & E).
    { intros [c1 c2] Hc Hn. rewrite His. destruct (upto_face2 m c1 c2) eqn:HG; [|reflexivity].
      rewrite at_fy by auto. destruct (not_picked _ _ _ _ Hn) as (-> & _ & ->). reflexivity. }
    exists ops. split; auto. etransitivity; [exact HP|]. cbn [map concat].
    rewrite !His, P1, P2, P3. rewrite !at_fy by auto. cbn [effects].
    rewrite !Z.eqb_refl. replace (i + 1 =? i) with false by lia.
    replace (j + 1 =? j) with false by lia. replace (j =? j + 1) with false by lia.
    cbn [andb app at_loc filter map]. reflexivity.
  - intros i j v Hv Hc Hn. apply ak_none. intros [c1 c2] _. rewrite His.
    destruct (upto_face2 m c1 c2) eqn:HG; [|reflexivity].
    rewrite at_fy_none by auto. reflexivity.
Qed.

(** Items issuing the EMF updates. *)
Lemma at_emf i j v c1 c2 e :
  at_loc (L2 aout i j v) (effects (memf_updates S dt aout c1 c2 e Done) s) =
  (if (c1 =? i) && (c2 =? j) && (IA =? v) then [fun x => nsub x (nmul e (ndiv dt (dy S)))] else []) ++
  (if (c1 =? i) && (c2 =? j) && (IB =? v) then [fun x => nadd x (nmul e (ndiv dt (dx S)))] else []) ++
  (if (c1 =? i) && (c2 - 1 =? j) && (IA =? v) then [fun x => nadd x (nmul e (ndiv dt (dy S)))] else []) ++
  (if (c1 - 1 =? i) && (c2 =? j) && (IB =? v) then [fun x => nsub x (nmul e (ndiv dt (dx S)))] else []).
Proof.
  unfold memf_updates. cbn [effects]. rewrite !at_loc_one. cbn [at_loc filter map].
  rewrite !app_nil_r. reflexivity.
Qed.

Lemma ak_emf emf :
  issues (fun c1 c2 => memf_updates S dt aout c1 c2 (emf c1 c2) Done) ->
  (forall i j v, phys2 m i j -> v = IA \/ v = IB ->
     exists ops, Permutation ops
       (if v =? IA then
         [ (fun y => nsub y (nmul (emf i j) (ndiv dt (dy S))));
           (fun y => nadd y (nmul (emf i (j + 1)) (ndiv dt (dy S)))) ]
        else
         [ (fun y => nadd y (nmul (emf i j) (ndiv dt (dx S))));
           (fun y => nsub y (nmul (emf (i + 1) j) (ndiv dt (dx S)))) ]) /\
       s' (L2 aout i j v) = fold_left (fun y f => f y) ops (s (L2 aout i j v))) /\
  (forall i j v, six v -> s' (L2 aout i j v) = s (L2 aout i j v)).
Proof.
  intros His. split.
  - intros i j v Hp Hv. destruct (three_cells i j Hp) as [T1 T2].
    destruct (upto_phys i j Hp) as (P1 & P2 & P3).
    destruct (ak_pick (L2 aout i j v) _ T1 T2) as (ops & HP & E).
    { intros [c1 c2] Hc Hn. rewrite His. destruct (upto_face2 m c1 c2) eqn:HG; [|reflexivity].
      rewrite at_emf. destruct (not_picked _ _ _ _ Hn) as (E1 & E2 & E3).
      repeat match goal with |- context [if ?b then _ else _] => replace b with false by (symmetry; lia) end.
      reflexivity. }
    exists ops. split; auto. etransitivity; [exact HP|]. cbn [map concat].
    rewrite !His, P1, P2, P3. rewrite !at_emf.
    rewrite !Z.eqb_refl. replace (i + 1 =? i) with false by lia.
    replace (j + 1 =? j) with false by lia. replace (i - 1 =? i) with false by lia.
    replace (j - 1 =? j) with false by lia. replace (i + 1 - 1 =? i) with true by lia.
    replace (j + 1 - 1 =? j) with true by lia.
    destruct Hv as [-> | ->]; cbn [Z.eqb IA IB Pos.eqb andb app]; reflexivity.
  - intros i j v Hv. apply ak_none. intros [c1 c2] _. rewrite His.
    destruct (upto_face2 m c1 c2) eqn:HG; [|reflexivity].
    rewrite at_emf. destruct Hv as (Hv & H1 & H2).
    replace (IA =? v) with false by lia. replace (IB =? v) with false by lia.
    rewrite !andb_false_r. reflexivity.
Qed.

End One.
End AtomicKernels.

Section Body.
Context {T : Type} {N : Num T}.
Variable m : mesh.
Variable S : hset T.
Variable dt : T.
Variable inb : extents.
Hypothesis Hslope : mslope_ok S.
Hypothesis Hsolver : msolver_ok S.
Hypothesis Hgw : 3 <= gw m.
Hypothesis Hnv : nbvar m = 8.
Variables ain aout : arr.
Hypothesis Hb : buffers ain aout.

Notation Hain := (buf_in ain aout Hb).
Notation Haout := (buf_out ain aout Hb).
Notation Hne := (buf_ne ain aout Hb).

(** Field seen by the scheme. *)
Variable U : field2 T.

Notation fx := (mFX S dt (mQ S U) U).
Notation fy := (mFY S dt (mQ S U) U).
Notation emf := (mE S dt (mQ S U) U).

(** State after the copy and the conversion to primitive variables. *)
Definition ready (s : store T) : Prop :=
  (forall i j v, cell2 m i j -> 0 <= v < 8 -> s (L2 ain i j v) = U i j v) /\
  (forall i j v, cell2 m i j -> 0 <= v < 8 -> s (L2 aout i j v) = U i j v) /\
  (forall i j, 0 <= i < isize m - 1 -> 0 <= j < jsize m - 1 -> getm s (L2 A_Q i j) = mQ S U i j).

Lemma mprefix_spec s1 s' :
  (forall i j v, cell2 m i j -> 0 <= v < 8 -> s1 (L2 ain i j v) = U i j v) ->
  execs inb s1 [deep_copy2 m aout ain; map (mconvert_item2 m S ain) (cells2 m)] s' -> ready s'.
Proof.
  intros F1 H2. inv_execs H2. inv_execs HT. inv_execs HT0.
  destruct (deep_copy_spec m inb aout ain _ _ (not_eq_sym Hne) ltac:(lia) HK) as (D1 & D2).
  destruct (mconvert_spec m S inb ain _ _ Hain HK0) as (C1 & C2).
  assert (Hin : forall i j v, s' (L2 ain i j v) = s1 (L2 ain i j v)).
  { intros. rewrite C2, D2; auto; simpl; destruct Hb as [[-> ->]|[-> ->]]; congruence. }
  assert (Hout : forall i j v, s' (L2 aout i j v) = s (L2 aout i j v)).
  { intros. rewrite C2; auto; simpl; destruct Hb as [[-> ->]|[-> ->]]; congruence. }
  split; [|split].
  - intros i j v Hc Hv. rewrite Hin. apply F1; auto.
  - intros i j v Hc Hv. rewrite Hout, D1 by (auto; lia). apply F1; auto.
  - intros i j Hi Hj. rewrite C1 by auto. apply mQ_ext. intros di dj v Hdi Hdj Hv.
    rewrite D2 by (simpl; apply Hne). apply F1; auto. unfold cell2, isize, jsize in *. lia.
Qed.

(** The half-step states computed from the arrays are those of the scheme. *)
Lemma mtr_ready s i j : ready s -> gw m - 2 <= i <= nx m + gw m -> gw m - 2 <= j <= ny m + gw m ->
  mtr S dt (fun i j => getm s (L2 A_Q i j)) (fun i j v => s (L2 ain i j v)) i j =
  mtr S dt (mQ S U) U i j.
Proof.
  intros (R1 & _ & R3) Hi Hj. apply mtr_ext.
  - intros di dj Hdi Hdj. apply R3; unfold isize, jsize; lia.
  - intros di dj v Hdi Hdj Hv. apply R1; auto. unfold cell2. lia.
Qed.

(** After the trace kernel. *)
Definition traced_ok (s : store T) : Prop :=
  (forall b i j, In b traced_arrays -> gw m - 2 <= i <= nx m + gw m -> gw m - 2 <= j <= ny m + gw m ->
     getm s (L2 b i j) = tpart b (mtr S dt (mQ S U) U i j)) /\
  (forall i j v, cell2 m i j -> 0 <= v < 8 -> s (L2 aout i j v) = U i j v).

Lemma traced_not_buf : ~ In ain traced_arrays /\ ~ In aout traced_arrays.
Proof. destruct Hb as [[-> ->]|[-> ->]]; split; intros H; simpl in H; intuition discriminate. Qed.

Lemma mtrace_ready s s' : ready s ->
  exec inb s (map (mtrace_item2 m S dt ain) (cells2 m)) s' -> traced_ok s'.
Proof.
  intros HR Hex. destruct (mtrace_spec m S dt inb Hslope ain _ _ Hain ltac:(lia) Hex) as (T1 & T2).
  split.
  - intros b i j Hi' Hi Hj. rewrite T1 by auto. f_equal. apply mtr_ready; auto.
  - intros. rewrite T2 by (simpl; apply traced_not_buf). apply HR; auto.
Qed.

Lemma sFX_ok s i j : traced_ok s -> gw m <= i <= nx m + gw m -> gw m <= j <= ny m + gw m ->
  sFX S s i j = fx i j.
Proof.
  intros (T1 & _) Hi Hj. unfold sFX, mFX. rewrite !T1 by (simpl; auto; lia). reflexivity.
Qed.
Lemma sFY_ok s i j : traced_ok s -> gw m <= i <= nx m + gw m -> gw m <= j <= ny m + gw m ->
  sFY S s i j = fy i j.
Proof.
  intros (T1 & _) Hi Hj. unfold sFY, mFY. rewrite !T1 by (simpl; auto; lia). reflexivity.
Qed.
Lemma sE_ok s i j : traced_ok s -> gw m <= i <= nx m + gw m -> gw m <= j <= ny m + gw m ->
  sE S s i j = emf i j.
Proof.
  intros (T1 & _) Hi Hj. unfold sE, mE. rewrite !T1 by (simpl; tauto || lia). reflexivity.
Qed.

(** What a step must achieve. *)
Definition mresult (s' : store T) : Prop :=
  (forall i j v, phys2 m i j -> 0 <= v < 8 -> s' (L2 aout i j v) = mstep2 S dt U i j v) /\
  (forall i j v, cell2 m i j -> ~ phys2 m i j -> 0 <= v < 8 -> s' (L2 aout i j v) = U i j v).

Lemma mscheme_V0 s s' : ready s -> execs inb s (mscheme2 m S dt V0 ain aout) s' -> mresult s'.
Proof.
  intros HR Hex. cbn [mscheme2] in Hex. inv_execs Hex. inv_execs HT. inv_execs HT0. inv_execs HT.
  inv_execs HT0. inv_execs HT.
  rename s0 into sa, s1 into sb, s2 into sc, s3 into sd.
  pose proof (mtrace_ready s sa HR HK) as HTr. pose proof HTr as (_ & T2).
  destruct (mfluxes_spec m S inb Hsolver _ _ ltac:(lia) HK0) as (F1 & F2).
  destruct (memf_spec m S inb _ _ ltac:(lia) HK1) as (E1 & E2).
  destruct (mupdate_spec m S dt inb aout _ _ Haout ltac:(lia) HK2) as (U1 & U2 & U3 & U4).
  destruct (mupdate_emf_spec m S dt inb aout _ _ Haout ltac:(lia) HK3) as (V1 & V2 & V3 & V4).
  assert (HTb : traced_ok sb).
  { split.
    - intros b i j Hb' Hi Hj. rewrite <- (proj1 HTr) by auto. apply getm_ext. intros v Hv.
      apply F2; simpl; intros ->; simpl in Hb'; intuition discriminate.
    - intros i j v Hc Hv. rewrite F2; auto; simpl; destruct Hb as [[-> ->]|[-> ->]]; congruence. }
  assert (N1 : aout <> A_Fx /\ aout <> A_Fy /\ aout <> A_Emf)
    by (destruct Hb as [[-> ->]|[-> ->]]; repeat split; congruence).
  destruct N1 as (N1 & N2 & N3).
  assert (Hfl : forall b i j, b = A_Fx \/ b = A_Fy -> getm sc (L2 b i j) = getm sb (L2 b i j)).
  { intros b i j Hb'. apply getm_ext. intros v Hv. apply E2. simpl. destruct Hb' as [-> | ->]; congruence. }
  assert (Hflv : forall i j v, sc (L2 A_Fx i j v) = sb (L2 A_Fx i j v)).
  { intros. apply E2. simpl. congruence. }
  assert (Hemf : forall i j, gw m <= i <= nx m + gw m -> gw m <= j <= ny m + gw m ->
     sd (L2 A_Emf i j 0) = emf i j).
  { intros. rewrite U4 by (simpl; congruence). rewrite E1 by lia. apply sE_ok; auto. }
  assert (Hun : forall i j v, cell2 m i j -> 0 <= v < 8 -> sc (L2 aout i j v) = U i j v).
  { intros. rewrite E2 by auto. rewrite F2 by auto. apply T2; auto. }
  split.
  - intros i j v Hp Hv. assert (Hc := phys_cell m ltac:(lia) i j Hp).
    assert (Hij := Hp). destruct Hij as [Hi Hj]. unfold physical in Hi, Hj.
    unfold mstep2, mbalance.
    destruct (v =? IA) eqn:EA; [|destruct (v =? IB) eqn:EB].
    + replace v with IA by lia. rewrite (proj1 (V1 i j Hp)).
      rewrite !Hemf by lia. rewrite U2 by auto. rewrite Hun by (auto; unfold IA; lia). reflexivity.
    + replace v with IB by lia. rewrite (proj2 (V1 i j Hp)).
      rewrite !Hemf by lia. rewrite U2 by auto. rewrite Hun by (auto; unfold IB; lia). reflexivity.
    + assert (H6 : six v) by (unfold six; lia).
      rewrite V2 by auto. rewrite U1 by auto. rewrite Hun by auto.
      rewrite !Hflv. rewrite <- !(mget_getm sb (L2 A_Fx _ _)) by auto. rewrite !Hfl by auto.
      destruct (F1 i j) as [G1 G2]; try lia. destruct (F1 (i + 1) j) as [G3 _]; try lia.
      destruct (F1 i (j + 1)) as [_ G4]; try lia. rewrite G1, G2, G3, G4.
      rewrite !swap_xy_twice. rewrite !sFX_ok, !sFY_ok by (auto; lia). reflexivity.
  - intros i j v Hc Hp Hv. rewrite V3 by auto. rewrite U3 by auto. apply Hun; auto.
Qed.

(** Result when the contributions are accumulated by atomics: the field components
    of the ghost cells next to the domain are touched too. *)
Definition mresult_any (fx fy : Z -> Z -> ms T) (emf : Z -> Z -> T) (s' : store T) : Prop :=
  (forall i j v, phys2 m i j -> 0 <= v < 8 -> mbalance_any S dt fx fy emf U i j v (s' (L2 aout i j v))) /\
  (forall i j v, cell2 m i j -> ~ phys2 m i j -> six v -> s' (L2 aout i j v) = U i j v).

Lemma R_not_aout a : a <> aout -> forall i j v, la (L2 a i j v) <> aout.
Proof. auto. Qed.

Ltac atomic_foot :=
  footm2; intros; simpl; auto; try (destruct Haout as [-> | ->]; congruence).

Lemma foot_mfluxes_update c : atomic_only aout (mfluxes_update_item2 m S dt aout c).
Proof.
  destruct c as [i j]. unfold atomic_only, mfluxes_update_item2.
  destruct (upto_face2 m i j); [|exact I]. unfold mflux_x_updates, mflux_y_updates. atomic_foot.
Qed.

Lemma foot_memf_update c : atomic_only aout (memf_update_item2 m S dt aout c).
Proof.
  destruct c as [i j]. unfold atomic_only, memf_update_item2.
  destruct (upto_face2 m i j); [|exact I]. unfold medge2, memf_updates. atomic_foot.
Qed.

Lemma issues_mfluxes_update s :
  issues m (mfluxes_update_item2 m S dt aout) s
    (fun c1 c2 => mflux_x_updates m S dt aout c1 c2 (sFX S s c1 c2)
                   (mflux_y_updates m S dt aout c1 c2 (sFY S s c1 c2) Done)).
Proof.
  intros c1 c2. unfold mfluxes_update_item2. destruct (upto_face2 m c1 c2); [|reflexivity].
  rewrite !effects_rdm, effects_msolve by auto. unfold mflux_x_updates. rewrite !effects_matomics.
  do 2 f_equal. rewrite !effects_rdm, effects_msolve by auto. reflexivity.
Qed.

Lemma issues_memf_update s :
  issues m (memf_update_item2 m S dt aout) s (fun c1 c2 => memf_updates S dt aout c1 c2 (sE S s c1 c2) Done).
Proof.
  intros c1 c2. unfold memf_update_item2. destruct (upto_face2 m c1 c2); reflexivity.
Qed.

Lemma mscheme_V1 s s' : ready s -> execs inb s (mscheme2 m S dt V1 ain aout) s' ->
  mresult_any fx fy emf s'.
Proof.
  intros HR Hex. cbn [mscheme2] in Hex. inv_execs Hex. inv_execs HT. inv_execs HT0. inv_execs HT.
  rename s0 into sa, s1 into sb.
  pose proof (mtrace_ready s sa HR HK) as HTr. pose proof HTr as (_ & T2).
  pose proof (ak_frame m inb aout _ _ _ foot_mfluxes_update HK0) as FB.
  pose proof (ak_frame m inb aout _ _ _ foot_memf_update HK1) as FC.
  destruct (ak_flux m S dt inb aout ltac:(lia) _ _ _ foot_mfluxes_update HK0 _ _ (issues_mfluxes_update sa))
    as (F1 & F2).
  destruct (ak_emf m S dt inb aout ltac:(lia) _ _ _ foot_memf_update HK1 _ (issues_memf_update sb))
    as (E1 & E2).
  assert (HTb : forall b i j, In b traced_arrays -> getm sb (L2 b i j) = getm sa (L2 b i j)).
  { intros b i j Hb'. apply getm_ext. intros. apply FB. simpl. intros ->.
    apply traced_not_buf; auto. }
  assert (HsE : forall i j, sE S sb i j = sE S sa i j).
  { intros. unfold sE. rewrite !HTb by (simpl; tauto). reflexivity. }
  split.
  - intros i j v Hp Hv. assert (Hc := phys_cell m ltac:(lia) i j Hp).
    assert (Hij := Hp). destruct Hij as [Hi Hj]. unfold physical in Hi, Hj.
    unfold mbalance_any.
    destruct (v =? IA) eqn:EA; [|destruct (v =? IB) eqn:EB].
    + replace v with IA in * by lia.
      destruct (E1 i j IA Hp) as (ops & HP & E); auto. exists ops.
      rewrite E. rewrite F2 by (auto; unfold six; tauto). rewrite T2 by auto. split; auto.
      rewrite Z.eqb_refl in HP. rewrite !HsE in HP. rewrite !sE_ok in HP by (auto; lia). exact HP.
    + replace v with IB in * by lia.
      destruct (E1 i j IB Hp) as (ops & HP & E); auto. exists ops.
      rewrite E. rewrite F2 by (auto; unfold six; tauto). rewrite T2 by auto. split; auto.
      cbn [Z.eqb IB IA Pos.eqb] in HP. rewrite !HsE in HP. rewrite !sE_ok in HP by (auto; lia). exact HP.
    + assert (H6 : six v) by (unfold six; lia).
      destruct (F1 i j v Hp H6) as (ops & HP & E). exists ops.
      rewrite E2 by auto. rewrite E. rewrite T2 by auto. split; auto.
      rewrite !sFX_ok, !sFY_ok in HP by (auto; lia). exact HP.
  - intros i j v Hc Hp Hv. rewrite E2 by auto. rewrite F2; auto; [|apply Hv|tauto].
    apply T2; auto. apply Hv.
Qed.

End Body.
