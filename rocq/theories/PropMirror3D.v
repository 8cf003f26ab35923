(** * C62, C37 and C42 for whole 3D hydrodynamics runs *)
From Coq Require Import ZArith List Bool Lia ZifyBool Reals Lra.
Import ListNotations.
From Verif Require Import Num Exec ExecFacts Grid GridFacts Boundaries BoundariesSpec
  HydroNum Kernels KernelFacts Hydro2D Hydro2DSpec Hydro2DFacts Hydro2DStep Hydro2DRun
  Sums EulerSpec HydroPhysics HydroRiemann PropPhysics Hydro2DLaws Hydro2DMirror PropHydro2D
  Hydro3D Hydro3DSpec Hydro3DFacts Hydro3DStep Hydro3DRun Hydro3DLaws Hydro3DAxes PropHydro3D Hydro3DMirror
  TimeStep TimeStepFacts Driver DriverFacts HydroMachine PropDriver PropMirror.
Local Open Scope R_scope.

(** ** Time steps *)
Lemma dt_local3_same m m' (S S' : hset R) g U G U' G' (p p' : Z -> Z -> Z -> Z * Z * Z) d d' :
  (0 <= gw m)%Z -> (0 <= gw m')%Z -> cfl S = cfl S' ->
  (forall i j k, phys3 m i j k -> let '(a, b, c) := p i j k in phys3 m' a b c /\
     speeds3 S' U' a b c = speeds3 S U i j k /\ gravity_speeds3 S' U' G' a b c = gravity_speeds3 S U G i j k) ->
  (forall i j k, phys3 m' i j k -> let '(a, b, c) := p' i j k in phys3 m a b c /\
     speeds3 S U a b c = speeds3 S' U' i j k /\ gravity_speeds3 S U G a b c = gravity_speeds3 S' U' G' i j k) ->
  dt_local3 m S g U G d -> dt_local3 m' S' g U' G' d' -> d = d'.
Proof.
  intros Hg Hg' Hc H1 H2 (v & HR & ->) (w & HR' & ->). rewrite Hc. f_equal. destruct (g_enabled g).
  - refine (red_R_same (fun c => inner3 m (fst (fst c)) (snd (fst c)) (snd c)) (fun c => gravity_speeds3 S U G (fst (fst c)) (snd (fst c)) (snd c))
      (fun c => inner3 m' (fst (fst c)) (snd (fst c)) (snd c)) (fun c => gravity_speeds3 S' U' G' (fst (fst c)) (snd (fst c)) (snd c)) _ _ _ _ _ v w _ _ _ _ HR HR').
    + intros [[i j] k] a. reflexivity.
    + intros [[i j] k] a. reflexivity.
    + intros [[i j] k] _ Hp. apply inner3_phys in Hp. specialize (H1 i j k Hp). destruct (p i j k) as [[a b] c]. destruct H1 as (A & _ & B).
      exists (a, b, c). split; [apply phys_cells3; auto|]. split; [apply inner3_phys; auto|exact B].
    + intros [[i j] k] _ Hp. apply inner3_phys in Hp. specialize (H2 i j k Hp). destruct (p' i j k) as [[a b] c]. destruct H2 as (A & _ & B).
      exists (a, b, c). split; [apply phys_cells3; auto|]. split; [apply inner3_phys; auto|exact B].
  - refine (red_R_same (fun c => inner3 m (fst (fst c)) (snd (fst c)) (snd c)) (fun c => speeds3 S U (fst (fst c)) (snd (fst c)) (snd c))
      (fun c => inner3 m' (fst (fst c)) (snd (fst c)) (snd c)) (fun c => speeds3 S' U' (fst (fst c)) (snd (fst c)) (snd c)) _ _ _ _ _ v w _ _ _ _ HR HR').
    + intros [[i j] k] a. reflexivity.
    + intros [[i j] k] a. reflexivity.
    + intros [[i j] k] _ Hp. apply inner3_phys in Hp. specialize (H1 i j k Hp). destruct (p i j k) as [[a b] c]. destruct H1 as (A & B & _).
      exists (a, b, c). split; [apply phys_cells3; auto|]. split; [apply inner3_phys; auto|exact B].
    + intros [[i j] k] _ Hp. apply inner3_phys in Hp. specialize (H2 i j k Hp). destruct (p' i j k) as [[a b] c]. destruct H2 as (A & B & _).
      exists (a, b, c). split; [apply phys_cells3; auto|]. split; [apply inner3_phys; auto|exact B].
Qed.

Lemma prim3_mirror_all (S : hset R) d u : prim3 S (mird d u) = (mird d (fst (prim3 S u)), snd (prim3 S u)).
Proof.
  rewrite (surjective_pairing (prim3 S (mird d u))), prim3_mirror. f_equal.
  destruct d; unfold prim3, mird; cbv zeta; cbn [snd hd hp hu hv hw]; Rn;
  (do 5 f_equal; unfold Rdiv; ring).
Qed.
Lemma prim3_x_all (S : hset R) e u : prim3 (xset e S) (xhs e u) = (xhs e (fst (prim3 S u)), snd (prim3 S u)).
Proof.
  replace (prim3 (xset e S) (xhs e u)) with (prim3 S (xhs e u)) by (destruct e; reflexivity).
  rewrite (surjective_pairing (prim3 S (xhs e u))), prim3_x. f_equal.
  destruct e; unfold prim3, xhs, swap_uv, swap_vw; cbv zeta; cbn [snd hd hp hu hv hw]; Rn;
  (do 5 f_equal; unfold Rdiv; ring).
Qed.

Lemma speeds3_reflect m d (S : hset R) U G i j k :
  speeds3 S (reflect3 m d U) i j k = rpos m d (speeds3 S U) i j k /\
  gravity_speeds3 S (reflect3 m d U) (reflect_g3 m d G) i j k = rpos m d (gravity_speeds3 S U G) i j k.
Proof.
  assert (E : cell_state3 (reflect3 m d U) i j k = mird d (rpos m d (cell_state3 U) i j k)) by (destruct d; reflexivity).
  unfold speeds3, gravity_speeds3. rewrite E, prim3_mirror_all.
  destruct d; cbn [rpos]; match goal with |- context [prim3 S ?u] => destruct (prim3 S u) as [q c] end;
  unfold mird, reflect_g3, odd_if, IGd, IX, IY, IZ; cbn [fst snd hd hp hu hv hw rpos]; Rn;
  cbv beta iota delta [Z.eqb Pos.eqb]; rewrite !Rabs_Ropp; auto.
Qed.
Lemma speeds3_x e (S : hset R) U G i j k :
  speeds3 (xset e S) (xfield e U) i j k = xpos e (speeds3 S U) i j k /\
  gravity_speeds3 (xset e S) (xfield e U) (xgrav e G) i j k = xpos e (gravity_speeds3 S U G) i j k.
Proof.
  assert (E : cell_state3 (xfield e U) i j k = xhs e (xpos e (cell_state3 U) i j k)) by (destruct e; reflexivity).
  assert (HM : forall a b c, Rmin (Rmin a b) c = Rmin a (Rmin b c)) by (intros; symmetry; apply Rmin_assoc).
  unfold speeds3, gravity_speeds3. rewrite E, prim3_x_all.
  destruct e; cbn [xpos]; match goal with |- context [prim3 S ?u] => destruct (prim3 S u) as [q c] end.
  - unfold xgrav, xcomp, xhs, swap_uv, xset, corrected, IX, IY, IZ; cbn [fst snd hd hp hu hv hw xpos dx dy dz cfl]; Rn.
    cbv beta iota delta [Z.eqb Pos.eqb]. split; [ring|].
    rewrite (Rmin_comm (dy S) (dx S)), (Rplus_comm (Rabs (G j i k 1%Z))).
    replace (0 + (c + Rabs (hv q)) + (c + Rabs (hu q)) + (c + Rabs (hw q))) with (0 + (c + Rabs (hu q)) + (c + Rabs (hv q)) + (c + Rabs (hw q))) by ring. reflexivity.
  - unfold xgrav, xcomp, xhs, swap_vw, xset, corrected, IX, IY, IZ; cbn [fst snd hd hp hu hv hw xpos dx dy dz cfl]; Rn.
    cbv beta iota delta [Z.eqb Pos.eqb]. split; [ring|].
    rewrite !HM, (Rmin_comm (dz S) (dy S)).
    replace (Rabs (G i k j 0%Z) + Rabs (G i k j 2%Z) + Rabs (G i k j 1%Z)) with (Rabs (G i k j 0%Z) + Rabs (G i k j 1%Z) + Rabs (G i k j 2%Z)) by ring.
    replace (0 + (c + Rabs (hu q)) + (c + Rabs (hw q)) + (c + Rabs (hv q))) with (0 + (c + Rabs (hu q)) + (c + Rabs (hv q)) + (c + Rabs (hw q))) by ring. reflexivity.
Qed.

(** ** Runs carried from one mesh to another *)
Section Carry3.
Variables m m' : mesh.
Variables S S' : hset R.
Variable g : gravp.
Variables iv iv' : impl.
Variable phi : field3 R -> field3 R.
Variable psi : field3 R -> field3 R.
Hypothesis Hr : ready3 m S.
Hypothesis Hr' : ready3 m' S'.
Hypothesis Hext : forall u z, same_phys3 m u z -> same_phys3 m' (phi u) (phi z).
Variable okG : field3 R -> Prop.
Hypothesis Hstep : forall dt u G, okG G ->
  same_phys3 m' (step3 S' g dt (full_of iv') (extend3 m' (phi u)) (psi G)) (phi (step3 S g dt (full_of iv) (extend3 m u) G)).
Hypothesis Hdt : forall U G d d', okG G -> dt_local3 m S g U G d -> dt_local3 m' S' g (phi U) (psi G) d' -> d = d'.

(** As [carried] of PropMirror.v. *)
Definition carried3 : sol (T := R) (M := store R) (D := field3 R) -> sol (T := R) (M := store R) (D := field3 R) -> Prop :=
  same_sol (fun n a b => same_phys3 m' (field_of3 (in_array n) b) (phi (field_of3 (in_array n) a)))
           (fun u z => same_phys3 m' z (phi u)).

Let rel G (n : nat) (a b : store R) : Prop :=
  same_phys3 m' (field_of3 (in_array n) b) (phi (field_of3 (in_array n) a)) /\
  (forall i j k v, a (mkloc A_G i j k v) = G i j k v) /\ (forall i j k v, b (mkloc A_G i j k v) = psi G i j k v).

Lemma rel_carried3 G s z : same_sol (rel G) (fun u z => same_phys3 m' z (phi u)) s z -> carried3 s z.
Proof. intros (A & B & C & D & E & F & _). repeat (split; auto). Qed.

Lemma steps_carried3 inb inb' n dts s1 s1' s2 s2' :
  okG (field_of3 A_G s1) ->
  (forall i j k v, field_of3 A_G s2 i j k v = psi (field_of3 A_G s1) i j k v) ->
  same_phys3 m' (field_of3 (cur n) s2) (phi (field_of3 (cur n) s1)) ->
  execs inb s1 (steps3 m S g iv n dts) s1' ->
  execs inb' s2 (steps3 m' S' g iv' n dts) s2' ->
  same_phys3 m' (final_field3 n dts s2') (phi (final_field3 n dts s1')).
Proof.
  intros HG HG2 HU E1 E2.
  pose proof (run3_R m S g inb iv n dts s1 s1' Hr E1) as A.
  pose proof (run3_R m' S' g inb' iv' n dts s2 s2' Hr' E2) as B.
  destruct Hr as (Hw & Hg & Hn & Hs & Hv), Hr' as (Hw' & Hg' & Hn' & Hs' & Hv').
  intros i j k v Hp Hvv. rewrite B by auto.
  rewrite (run_spec3_ext m' S' g (full_of iv') Hw' Hg' dts _ (phi (field_of3 (cur n) s1)) _ (psi (field_of3 A_G s1))); auto.
  assert (X : forall dts u, same_phys3 m' (run_spec3 m' S' g (full_of iv') (psi (field_of3 A_G s1)) dts (phi u))
                (phi (run_spec3 m S g (full_of iv) (field_of3 A_G s1) dts u))).
  { clear - HG Hstep Hw' Hg'. induction dts as [|dt dts IH]; intros u; cbn [run_spec3]; [intros i j k v _ _; reflexivity|].
    intros i j k v Hp Hv. rewrite <- IH by auto. apply run_spec3_ext; auto. }
  rewrite X by auto. symmetry. apply Hext; auto.
Qed.

Lemma run_carried3 inb inb' c t0 k0 s0 s0' mem mem' s s' z z' tr ztr :
  okG (field_of3 A_G s0) ->
  (forall i j k v, field_of3 A_G s0' i j k v = psi (field_of3 A_G s0) i j k v) ->
  same_phys3 m' (field_of3 A_U s0') (phi (field_of3 A_U s0)) ->
  built3 m inb s0 mem -> built3 m' inb' s0' mem' ->
  start t0 k0 mem s -> start t0 k0 mem' z -> s_dt s = s_dt z ->
  main (hydro3 m S g inb iv) c s tr s' -> main (hydro3 m' S' g inb' iv') c z ztr z' ->
  Forall2 carried3 tr ztr /\ carried3 s' z'.
Proof.
  intros HG HG2 HU HB HB' Hs Hz Edt H1 H2.
  assert (X : Forall2 (same_sol (rel (field_of3 A_G s0)) (fun u z => same_phys3 m' z (phi u))) tr ztr /\
              same_sol (rel (field_of3 A_G s0)) (fun u z => same_phys3 m' z (phi u)) s' z').
  { destruct Hr as (Hw & Hg & Hn & Hsl & Hv), Hr' as (Hw' & Hg' & Hn' & Hsl' & Hv').
    refine (both_main (hydro3 m S g inb iv) c (hydro3 m' S' g inb' iv') (rel (field_of3 A_G s0)) (rel (field_of3 A_G s0))
      (fun u z => same_phys3 m' z (phi u)) _ _ _ _ s tr s' z ztr z' _ H1 H2).
    - intros n a a' b b' X -> ->. exact X.
    - intros n a b d d2 (A & B & C) D1 D2. cbn [local_dt hydro3] in D1, D2.
      apply (Hdt (field_of3 (in_array n) a) (field_of3 A_G s0) d d2 HG).
      + revert D1. apply dt_local3_ext; auto. intros i j k v _ _. reflexivity.
      + revert D2. apply dt_local3_ext; auto.
    - intros dt n a a' b b' (A & B & C) X1 X2. cbn [after hydro3] in X1, X2.
      destruct (refines3_R m S g inb iv Hw Hg Hn Hsl Hv dt n a a' X1) as [R1 R2].
      destruct (refines3_R m' S' g inb' iv' Hw' Hg' Hn' Hsl' Hv' dt n b b' X2) as [Q1 Q2].
      split; [|split; intros; [rewrite R2|rewrite Q2]; auto].
      intros i j k v Hp Hvv. change (in_array (Datatypes.S n)) with (cur (Datatypes.S n)). rewrite cur_S.
      rewrite Q1 by auto.
      transitivity (step3 S' g dt (full_of iv') (extend3 m' (phi (field_of3 (in_array n) a))) (psi (field_of3 A_G s0)) i j k v).
      { apply step3_ext; auto. }
      rewrite Hstep by auto. apply Hext; auto. intros i' j' k' v' Hp' Hv'0. symmetry. rewrite R1 by auto.
      apply step3_ext; auto. intros ? ? ? ? _ _. reflexivity.
    - intros n a b (A & _). exact A.
    - destruct Hs as (E1 & E2 & E3 & E4 & E5), Hz as (F1 & F2 & F3 & F4 & F5).
      unfold same_sol. rewrite E1, E2, E3, E4, E5, F1, F2, F3, F4, F5.
      destruct (built3_holds m inb s0 mem Hw ltac:(lia) HB) as [B1 B2].
      destruct (built3_holds m' inb' s0' mem' Hw' ltac:(lia) HB') as [B1' B2'].
      repeat (split; auto).
      + intros i j k v Hp Hvv. rewrite B1' by auto. rewrite HU by auto. apply Hext; auto.
        intros a b e w Ha Hb. symmetry. apply B1; auto.
      + intros. rewrite B2'. apply HG2. }
  destruct X as [A B]. split; [|apply (rel_carried3 _ _ _ B)].
  clear - A. induction A; constructor; auto. apply (rel_carried3 _ _ _ H).
Qed.
End Carry3.

(** ** The maps *)
Section Maps3.
Variable m : mesh.
Variable S : hset R.
Variable g : gravp.
Hypothesis Hr : ready3 m S.

Lemma ready_reflect3 d : ready3 (reflect_mesh3 m d) S.
Proof. destruct Hr as (Hw & Hg & Hn & Hs & Hv). split; [apply reflect3_wide; auto|]. repeat (split; auto). Qed.
Lemma ready_x e : ready3 (xmesh e m) (xset e S).
Proof.
  destruct Hr as (Hw & Hg & Hn & Hs & Hv). unfold ready3. rewrite xmesh_gw, xmesh_nbvar, xset_slope, xset_solver.
  split; [apply xmesh_wide; auto|]. auto.
Qed.

Lemma rpos_phys d i j k : phys3 m i j k -> rpos m d (phys3 m) i j k.
Proof. destruct d; cbn [rpos]; unfold phys3, phys2, physical, oppd; cbn [nd]; lia. Qed.
Lemma reflect_phys d i j k : phys3 (reflect_mesh3 m d) i j k <-> phys3 m i j k.
Proof. reflexivity. Qed.

Lemma ext_reflect3 d u z : same_phys3 m u z -> same_phys3 (reflect_mesh3 m d) (reflect3 m d u) (reflect3 m d z).
Proof.
  intros H i j k v Hp Hv. apply reflect_phys in Hp. apply (rpos_phys d) in Hp.
  unfold reflect3. destruct d; cbn [rpos] in *; rewrite H; auto.
Qed.
Lemma ext_x e u z : same_phys3 m u z -> same_phys3 (xmesh e m) (xfield e u) (xfield e z).
Proof.
  intros H i j k v Hp Hv. apply xmesh_phys in Hp. pose proof (xv_range e v Hv).
  unfold xfield. destruct e; cbn [xpos] in *; rewrite H; auto.
Qed.

(** The two runs use the gravity predictor alike: it is off, or they are of the same
    kind, and not version 1 where the axis of the faces it treats on one side only is
    concerned. *)
Definition alike (g : gravp) (iv iv' : impl) (d : dir) : Prop :=
  no_predictor g \/ (full_of iv = full_of iv' /\ (d = DZ -> iv <> V1)).

Lemma steps_reflect3 iv iv' d dt u G : sane S -> solver S <> R_APPROX -> alike g iv iv' d -> True ->
  same_phys3 (reflect_mesh3 m d) (step3 S g dt (full_of iv') (extend3 (reflect_mesh3 m d) (reflect3 m d u)) (reflect_g3 m d G))
    (reflect3 m d (step3 S g dt (full_of iv) (extend3 m u) G)).
Proof.
  intros HS HA Hal _ i j k v Hp Hv. destruct Hr as (Hw & Hg & Hn & Hs & _).
  assert (HF : full_ok g (full_of iv) \/ d <> DZ).
  { destruct Hal as [Hal|[_ Hal]]; [left; right; exact Hal|]. destruct d; try (right; discriminate).
    left. left. destruct iv; try reflexivity. destruct (Hal eq_refl eq_refl). }
  rewrite <- step3_reflect by auto.
  transitivity (step3 S g dt (full_of iv) (extend3 (reflect_mesh3 m d) (reflect3 m d u)) (reflect_g3 m d G) i j k v).
  - destruct Hal as [Hal|[<- _]]; [|reflexivity].
    destruct (full_of iv), (full_of iv'); auto; [|symmetry]; apply step3_full; auto.
  - apply step3_stencil; auto. intros. apply extend3_reflect; auto.
Qed.

Lemma steps_x iv iv' e dt u G : no_predictor g \/ (iv <> V1 /\ iv' <> V1) -> True ->
  same_phys3 (xmesh e m) (step3 (xset e S) g dt (full_of iv') (extend3 (xmesh e m) (xfield e u)) (xgrav e G))
    (xfield e (step3 S g dt (full_of iv) (extend3 m u) G)).
Proof.
  intros Hal _ i j k v Hp Hv. destruct Hr as (Hw & Hg & Hn & Hs & _).
  assert (HF : full_ok g (full_of iv)).
  { destruct Hal as [Hal|[Hal _]]; [right; exact Hal|]. left. destruct iv; try reflexivity. congruence. }
  rewrite <- step3_x by auto.
  transitivity (step3 (xset e S) g dt (full_of iv) (extend3 (xmesh e m) (xfield e u)) (xgrav e G) i j k v).
  - destruct Hal as [Hal|[H1 H2]].
    + destruct (full_of iv), (full_of iv'); auto; [|symmetry]; apply step3_full; auto.
    + destruct iv, iv'; congruence || reflexivity.
  - apply step3_stencil; auto. intros. apply extend3_x; auto.
Qed.

Lemma dt_reflect3 e U G d d' : True -> dt_local3 m S g U G d ->
  dt_local3 (reflect_mesh3 m e) S g (reflect3 m e U) (reflect_g3 m e G) d' -> d = d'.
Proof.
  intros _. destruct Hr as (Hw & Hg & _).
  assert (O2 : forall e x, oppd m e (oppd m e x) = x) by (intros; unfold oppd; lia).
  apply (dt_local3_same _ _ _ _ _ _ _ _ _ (fun i j k => rpos m e (fun i j k => (i, j, k)) i j k) (fun i j k => rpos m e (fun i j k => (i, j, k)) i j k));
    try reflexivity; try (cbn [gw reflect_mesh3]; lia); intros i j k Hp; change (phys3 m i j k) in Hp; apply (rpos_phys e) in Hp.
  - destruct e; cbn [rpos] in *;
    [destruct (speeds3_reflect m DX S U G (oppd m DX i) j k) as [-> ->]
    |destruct (speeds3_reflect m DY S U G i (oppd m DY j) k) as [-> ->]
    |destruct (speeds3_reflect m DZ S U G i j (oppd m DZ k)) as [-> ->]]; cbn [rpos]; rewrite !O2; auto.
  - destruct (speeds3_reflect m e S U G i j k) as [X Y]. destruct e; cbn [rpos] in *; rewrite X, Y; auto.
Qed.
Lemma dt_x e U G d d' : True -> dt_local3 m S g U G d ->
  dt_local3 (xmesh e m) (xset e S) g (xfield e U) (xgrav e G) d' -> d = d'.
Proof.
  intros _. destruct Hr as (Hw & Hg & _).
  apply (dt_local3_same _ _ _ _ _ _ _ _ _ (fun i j k => xpos e (fun i j k => (i, j, k)) i j k) (fun i j k => xpos e (fun i j k => (i, j, k)) i j k));
    try (destruct e; reflexivity); try (destruct e; cbn [gw xmesh]; lia); intros i j k Hp; try apply xmesh_phys in Hp.
  - destruct e; cbn [xpos] in *; rewrite xmesh_phys; cbn [xpos];
    [destruct (speeds3_x EXY S U G j i k) as [-> ->]|destruct (speeds3_x EYZ S U G i k j) as [-> ->]]; auto.
  - destruct (speeds3_x e S U G i j k) as [X Y]. destruct e; cbn [xpos] in *; rewrite X, Y; auto.
Qed.
Lemma dt_shift3 a b c U G d d' : (forall e, periodic3 m e) -> dt_local3 m S g U G d ->
  dt_local3 m S g (shift3 m a b c U) (shift3 m a b c G) d' -> d = d'.
Proof.
  intros HP. destruct Hr as (Hw & Hg & _).
  assert (X : forall e i, physical (nd m e) (gw m) i -> wrap m e i = i).
  { intros e i Hi. unfold wrap, physical in *. rewrite Z.mod_small; lia. }
  assert (E : forall U G i j k, speeds3 S (shift3 m a b c U) i j k = speeds3 S U (wrap m DX (i + a)) (wrap m DY (j + b)) (wrap m DZ (k + c)) /\
    gravity_speeds3 S (shift3 m a b c U) (shift3 m a b c G) i j k = gravity_speeds3 S U G (wrap m DX (i + a)) (wrap m DY (j + b)) (wrap m DZ (k + c))) by (split; reflexivity).
  apply (dt_local3_same _ _ _ _ _ _ _ _ _ (fun i j k => (wrap m DX (i - a), wrap m DY (j - b), wrap m DZ (k - c)))
    (fun i j k => (wrap m DX (i + a), wrap m DY (j + b), wrap m DZ (k + c)))); try reflexivity; try lia; intros i j k [[P1 P2] P3].
  - destruct (E U G (wrap m DX (i - a)) (wrap m DY (j - b)) (wrap m DZ (k - c))) as [-> ->].
    rewrite !wrap_add by auto. replace (i - a + a)%Z with i by lia. replace (j - b + b)%Z with j by lia. replace (k - c + c)%Z with k by lia.
    rewrite (X DX i), (X DY j), (X DZ k) by auto. split; [apply wrap_phys3; auto|auto].
  - destruct (E U G i j k) as [-> ->]. split; [apply wrap_phys3; auto|auto].
Qed.
End Maps3.

(** ** C62 in 3D, along any axis *)
Theorem C62_mirror_3d :
  forall d m (S : hset R) g inb inb' iv iv' n dts s1 s1' s2 s2',
  ready3 m S -> sane S -> solver S <> R_APPROX -> alike g iv iv' d ->
  (forall i j k v, field_of3 A_G s2 i j k v = reflect_g3 m d (field_of3 A_G s1) i j k v) ->
  same_phys3 m (field_of3 (cur n) s2) (reflect3 m d (field_of3 (cur n) s1)) ->
  execs inb s1 (steps3 m S g iv n dts) s1' ->
  execs inb' s2 (steps3 (reflect_mesh3 m d) S g iv' n dts) s2' ->
  same_phys3 m (final_field3 n dts s2') (reflect3 m d (final_field3 n dts s1')).
Proof.
  intros d m S g inb inb' iv iv' n dts s1 s1' s2 s2' Hr HS HA Hal HG HU E1 E2.
  exact (steps_carried3 m (reflect_mesh3 m d) S S g iv iv' (reflect3 m d) (reflect_g3 m d) Hr (ready_reflect3 m S Hr d) (ext_reflect3 m d)
    (fun _ => True) (fun dt u G H => steps_reflect3 m S g Hr iv iv' d dt u G HS HA Hal H) inb inb' n dts s1 s1' s2 s2' I HG HU E1 E2).
Qed.
Print Assumptions C62_mirror_3d.

Theorem C62_mirror_3d_run :
  forall d m (S : hset R) g inb inb' iv iv' c t0 k0 s0 s0' mem mem' s s' z z' tr ztr,
  ready3 m S -> sane S -> solver S <> R_APPROX -> alike g iv iv' d ->
  (forall i j k v, field_of3 A_G s0' i j k v = reflect_g3 m d (field_of3 A_G s0) i j k v) ->
  same_phys3 m (field_of3 A_U s0') (reflect3 m d (field_of3 A_U s0)) ->
  built3 m inb s0 mem -> built3 (reflect_mesh3 m d) inb' s0' mem' ->
  start t0 k0 mem s -> start t0 k0 mem' z -> s_dt s = s_dt z ->
  main (hydro3 m S g inb iv) c s tr s' -> main (hydro3 (reflect_mesh3 m d) S g inb' iv') c z ztr z' ->
  Forall2 (carried3 m (reflect3 m d)) tr ztr /\ carried3 m (reflect3 m d) s' z'.
Proof.
  intros d m S g inb inb' iv iv' c t0 k0 s0 s0' mem mem' s s' z z' tr ztr Hr HS HA Hal HG HU HB HB' Hs Hz Ed H1 H2.
  exact (run_carried3 m (reflect_mesh3 m d) S S g iv iv' (reflect3 m d) (reflect_g3 m d) Hr (ready_reflect3 m S Hr d) (ext_reflect3 m d)
    (fun _ => True) (fun dt u G H => steps_reflect3 m S g Hr iv iv' d dt u G HS HA Hal H) (dt_reflect3 m S g Hr d)
    inb inb' c t0 k0 s0 s0' mem mem' s s' z z' tr ztr I HG HU HB HB' Hs Hz Ed H1 H2).
Qed.
Print Assumptions C62_mirror_3d_run.

Definition even3 (m : mesh) (d : dir) (u : field3 R) : Prop := same_phys3 m u (reflect3 m d u).

Lemma reflect_same3 m d : bc m (flo d) = bc m (fhi d) -> reflect_mesh3 m d = m.
Proof.
  intros H. destruct m as [a b c e f h bb]. unfold reflect_mesh3. cbn [nx ny nz gw nbvar p_mhd bc] in *. f_equal.
  apply FunctionalExtensionality.functional_extensionality. destruct d; intros []; cbn [other flo fhi] in *; auto.
Qed.

Theorem C62_symmetric_3d :
  forall d m (S : hset R) g inb iv c t0 k0 s0 mem s s' tr,
  ready3 m S -> sane S -> solver S <> R_APPROX -> (no_predictor g \/ d <> DZ \/ iv <> V1) -> bc m (flo d) = bc m (fhi d) ->
  (forall i j k v, field_of3 A_G s0 i j k v = reflect_g3 m d (field_of3 A_G s0) i j k v) ->
  even3 m d (field_of3 A_U s0) ->
  built3 m inb s0 mem -> start t0 k0 mem s ->
  main (hydro3 m S g inb iv) c s tr s' ->
  Forall (fun f => even3 m d (f_data f)) (s_files s') /\
  Forall (fun x => even3 m d (field_of3 (in_array (s_it x)) (s_mem x))) tr.
Proof.
  intros d m S g inb iv c t0 k0 s0 mem s s' tr Hr HS HA Hal Hb HG HU HB Hs H1.
  assert (Hal' : alike g iv iv d) by (unfold alike; tauto).
  pose proof (C62_mirror_3d_run d m S g inb inb iv iv c t0 k0 s0 s0 mem mem s s' s s' tr tr Hr HS HA Hal' HG HU HB) as X.
  rewrite (reflect_same3 m d Hb) in X. destruct (X HB Hs Hs eq_refl H1 H1) as [A B]. split.
  - destruct B as (_ & _ & _ & _ & HF & _). clear - HF. apply forall2_diag in HF. revert HF. apply Forall_impl.
    intros f (_ & _ & E). exact E.
  - apply forall2_diag in A. revert A. apply Forall_impl. intros x (_ & _ & _ & _ & _ & E). exact E.
Qed.
Print Assumptions C62_symmetric_3d.

(** ** Exchange of axes and translations of whole runs *)
Theorem C42_axis_exchange_run_3d :
  forall e m (S : hset R) g inb inb' iv iv' c t0 k0 s0 s0' mem mem' s s' z z' tr ztr,
  ready3 m S -> no_predictor g \/ (iv <> V1 /\ iv' <> V1) ->
  (forall i j k v, field_of3 A_G s0' i j k v = xgrav e (field_of3 A_G s0) i j k v) ->
  same_phys3 (xmesh e m) (field_of3 A_U s0') (xfield e (field_of3 A_U s0)) ->
  built3 m inb s0 mem -> built3 (xmesh e m) inb' s0' mem' ->
  start t0 k0 mem s -> start t0 k0 mem' z -> s_dt s = s_dt z ->
  main (hydro3 m S g inb iv) c s tr s' -> main (hydro3 (xmesh e m) (xset e S) g inb' iv') c z ztr z' ->
  Forall2 (carried3 (xmesh e m) (xfield e)) tr ztr /\ carried3 (xmesh e m) (xfield e) s' z'.
Proof.
  intros e m S g inb inb' iv iv' c t0 k0 s0 s0' mem mem' s s' z z' tr ztr Hr Hal HG HU HB HB' Hs Hz Ed H1 H2.
  exact (run_carried3 m (xmesh e m) S (xset e S) g iv iv' (xfield e) (xgrav e) Hr (ready_x m S Hr e) (ext_x m e)
    (fun _ => True) (fun dt u G H => steps_x m S g Hr iv iv' e dt u G Hal H) (dt_x m S g Hr e)
    inb inb' c t0 k0 s0 s0' mem mem' s s' z z' tr ztr I HG HU HB HB' Hs Hz Ed H1 H2).
Qed.
Print Assumptions C42_axis_exchange_run_3d.

Theorem C37_3d_translation_run :
  forall m (S : hset R) g inb inb' iv c t0 k0 s0 s0' mem mem' s s' z z' tr ztr a b d,
  ready3 m S -> (forall e, periodic3 m e) -> periodic_G3 m (field_of3 A_G s0) ->
  (forall i j k v, field_of3 A_G s0' i j k v = shift3 m a b d (field_of3 A_G s0) i j k v) ->
  same_phys3 m (field_of3 A_U s0') (shift3 m a b d (field_of3 A_U s0)) ->
  built3 m inb s0 mem -> built3 m inb' s0' mem' ->
  start t0 k0 mem s -> start t0 k0 mem' z -> s_dt s = s_dt z ->
  main (hydro3 m S g inb iv) c s tr s' -> main (hydro3 m S g inb' iv) c z ztr z' ->
  Forall2 (carried3 m (shift3 m a b d)) tr ztr /\ carried3 m (shift3 m a b d) s' z'.
Proof.
  intros m S g inb inb' iv c t0 k0 s0 s0' mem mem' s s' z z' tr ztr a b d Hr HP HPG HG HU HB HB' Hs Hz Ed H1 H2.
  pose proof Hr as (Hw & Hg & Hn & Hsl & Hv).
  refine (run_carried3 m m S S g iv iv (shift3 m a b d) (shift3 m a b d) Hr Hr _ (periodic_G3 m) _ _
    inb inb' c t0 k0 s0 s0' mem mem' s s' z z' tr ztr HPG HG HU HB HB' Hs Hz Ed H1 H2).
  - intros u w. apply shift_ext3; auto.
  - intros dt u G HGp. apply step_translate3; auto.
  - intros U G e e' _. apply dt_shift3; auto.
Qed.
Print Assumptions C37_3d_translation_run.

(** ** Case: a jet of gas between a wall below and an open end above, and its mirror
    image; both run to the end. *)
Local Open Scope Z_scope.
Definition ex_open3 : mesh := mkmesh 4 3 2 2 5 false (fun f => match f with ZMIN => 1 | ZMAX => 2 | _ => 3 end).
Definition jet : store R := fun l => match l with mkloc _ i j k v =>
  if v =? ID then (if k <? 3 then 1 else / 8)%R else if v =? IP then 2%R
  else if v =? IU then (/ 5)%R else if v =? IW then (/ 3)%R else 0%R end.
Definition jet_mirrored : store R := fun l => match l with mkloc _ i j k v =>
  if v =? ID then (if 2 <? k then 1 else / 8)%R else if v =? IP then 2%R
  else if v =? IU then (/ 5)%R else if v =? IW then (- / 3)%R else 0%R end.

Lemma run_from3 m iv (s0 : store R) : ready3 m (ex_set R_HLLC 1) ->
  let inb := alloc3d m (nv3 m no_gravity iv) in
  exists mem s tr s', built3 m inb s0 mem /\ start 0%R 0 mem s /\ s_dt s = 0%R /\
    main (hydro3 m (ex_set R_HLLC 1) no_gravity inb iv) ex_config s tr s'.
Proof.
  intros HR inb.
  assert (HF : Forall (Forall (in_foot inb)) (make_boundaries3d m A_U ++ [deep_copy3 (T := R) m A_U2 A_U])).
  { destruct HR as (Hw & Hg & Hn & Hs & Hr).
    pose proof (godunov3_in_foot m (ex_set R_HLLC 1) no_gravity 1%R Hs Hr Hw Hg Hn A_U A_U2
                 (or_introl (conj eq_refl eq_refl)) iv) as HF.
    unfold godunov3, godunov3_body in HF. apply Forall_app in HF. destruct HF as [HF1 HF2]. apply Forall_app. split; auto.
    apply Forall_app in HF2. destruct HF2 as [HF2 _]. inversion HF2; subst. constructor; auto. }
  destruct (in_foot_execs inb _ s0 HF) as [mem Hmem].
  set (s := mksol (D := field3 R) 0%R 0%R O 0 [] mem).
  destruct (C14_runs_complete_3d R Rnum m (ex_set R_HLLC 1) no_gravity iv ex_config s HR) as (tr & s' & HM); [discriminate|].
  exists mem, s, tr, s'. repeat (split; auto).
Qed.

Example C62_case_3d : forall iv,
  let inb := alloc3d ex_open3 (nv3 ex_open3 no_gravity iv) in
  let inb' := alloc3d (reflect_mesh3 ex_open3 DZ) (nv3 (reflect_mesh3 ex_open3 DZ) no_gravity iv) in
  bc (reflect_mesh3 ex_open3 DZ) ZMIN = 2 /\ bc (reflect_mesh3 ex_open3 DZ) ZMAX = 1 /\ oppd ex_open3 DZ 2 = 3 /\
  ready3 ex_open3 (ex_set R_HLLC 1) /\ sane (ex_set R_HLLC 1) /\ alike no_gravity iv iv DZ /\
  same_phys3 ex_open3 (field_of3 A_U jet_mirrored) (reflect3 ex_open3 DZ (field_of3 A_U jet)) /\
  (exists mem s tr s', built3 ex_open3 inb jet mem /\ start 0%R 0 mem s /\ s_dt s = 0%R /\
     main (hydro3 ex_open3 (ex_set R_HLLC 1) no_gravity inb iv) ex_config s tr s') /\
  exists mem s tr s', built3 (reflect_mesh3 ex_open3 DZ) inb' jet_mirrored mem /\ start 0%R 0 mem s /\ s_dt s = 0%R /\
     main (hydro3 (reflect_mesh3 ex_open3 DZ) (ex_set R_HLLC 1) no_gravity inb' iv) ex_config s tr s'.
Proof.
  intros iv inb inb'.
  assert (HR : ready3 ex_open3 (ex_set R_HLLC 1)).
  { destruct (ex_ready3 R_HLLC ex_mesh3 ltac:(discriminate) ltac:(discriminate) ltac:(simpl; auto)) as (_ & _ & _ & Hs & _).
    unfold ready3, wide3, wide2, ex_open3. cbn. repeat split; try lia; try discriminate; exact Hs. }
  split; [reflexivity|]. split; [reflexivity|]. split; [reflexivity|]. split; [exact HR|].
  split; [apply ex_steppable|]. split; [left; reflexivity|]. split.
  - intros i j k v _ Hv. unfold field_of3, reflect3, rpos, jet, jet_mirrored, oppd, odd_if, ex_open3, IVd, ID, IP, IU, IW. cbn [rpos nz gw nd].
    assert (v = 0 \/ v = 1 \/ v = 2 \/ v = 3 \/ v = 4) as [->|[->|[->|[->| ->]]]] by lia; cbv beta iota delta [Z.eqb Pos.eqb]; auto.
    all: replace (2 + 2 * 2 - 1 - k <? 3) with (2 <? k) by lia; reflexivity.
  - split; apply run_from3; auto using ready_reflect3.
Qed.
