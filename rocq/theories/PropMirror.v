(** * C62: mirror images of runs of the 2D hydrodynamics solver *)
From Coq Require Import ZArith List Bool Lia ZifyBool Reals Lra.
Import ListNotations.
From Verif Require Import Num Exec ExecFacts Grid GridFacts Boundaries BoundariesSpec
  HydroNum Kernels KernelFacts Hydro2D Hydro2DSpec Hydro2DFacts Hydro2DStep Hydro2DRun
  Sums EulerSpec HydroPhysics HydroRiemann PropPhysics Hydro2DLaws Hydro2DMirror PropHydro2D
  TimeStep TimeStepFacts Driver DriverFacts HydroMachine PropDriver.
Local Open Scope R_scope.

(** ** Mirror image along y *)
Definition opposite_y (m : mesh) (j : Z) : Z := (ny m + 2 * gw m - 1 - j)%Z.
Definition reflect_y (m : mesh) (u : field2 R) : field2 R := fun i j v => odd_if (v =? IV)%Z (u i (opposite_y m j) v).
Definition reflect_gy (m : mesh) (G : field2 R) : field2 R := fun i j v => odd_if (v =? IY)%Z (G i (opposite_y m j) v).
Definition reflect_mesh_y (m : mesh) : mesh :=
  mkmesh (nx m) (ny m) (nz m) (gw m) (nbvar m) (p_mhd m)
    (fun f => bc m match f with YMIN => YMAX | YMAX => YMIN | f => f end).

Lemma swap_swap (S : hset R) : swap_set (swap_set S) = S.
Proof. destruct S. reflexivity. Qed.

Lemma step_reflect_y m (S : hset R) g dt U G i j v : sane S -> slope_ok S -> solver S <> R_APPROX -> (0 <= v < 4)%Z ->
  step2 S g dt (reflect_y m U) (reflect_gy m G) i j v = reflect_y m (step2 S g dt U G) i j v.
Proof.
  intros HS Hslope HA Hv.
  assert (Hsv := swap_var_range v Hv).
  transitivity (step2 (swap_set (swap_set S)) g dt (transpose (reflect_x (swap_mesh m) (transpose U)))
                  (swap_g (reflect_gx (swap_mesh m) (swap_g G))) i j v).
  { rewrite swap_swap. apply step2_stencil; auto; intros a b w Ha Hb.
    - intros Hw. assert (w = 0 \/ w = 1 \/ w = 2 \/ w = 3)%Z as [->|[->|[->| ->]]] by lia; reflexivity.
    - unfold reflect_gy, swap_g, reflect_gx, opposite, opposite_y, odd_if, swap_mesh, IX, IY. cbn [nx ny gw].
      destruct (Z.eq_dec w 0) as [->|H0]; [reflexivity|]. destruct (Z.eq_dec w 1) as [->|H1]; [reflexivity|].
      replace (w =? 0)%Z with false by lia. replace (w =? 1)%Z with false by lia.
      replace (w =? 0)%Z with false by lia. replace (w =? 1)%Z with false by lia. reflexivity. }
  rewrite step_transpose by auto. unfold transpose at 1.
  rewrite step_reflect; auto.
  unfold reflect_x, reflect_y. rewrite step_transpose by auto. unfold transpose.
  assert (v = 0 \/ v = 1 \/ v = 2 \/ v = 3)%Z as [->|[->|[->| ->]]] by lia; reflexivity.
Qed.

Lemma extend_reflect_y m u i j v : wide2 m -> (0 <= v < 4)%Z ->
  extend (reflect_mesh_y m) (reflect_y m u) i j v = reflect_y m (extend m u) i j v.
Proof.
  intros (Hg & _ & _ & _ & (Hn & _) & _) Hv.
  destruct (image_reflect (kind_of (bc m YMIN)) (kind_of (bc m YMAX)) (ny m) (gw m) j Hn ltac:(lia)) as [A B].
  unfold reflect_y, extend.
  change (image_y (reflect_mesh_y m) j) with (image (kind_of (bc m YMAX)) (kind_of (bc m YMIN)) (ny m) (gw m) j).
  change (mirrored_y (reflect_mesh_y m) j) with (mirrored (kind_of (bc m YMAX)) (kind_of (bc m YMIN)) (ny m) (gw m) j).
  change (image_x (reflect_mesh_y m) i) with (image_x m i). change (mirrored_x (reflect_mesh_y m) i) with (mirrored_x m i).
  change (p_mhd (reflect_mesh_y m)) with (p_mhd m).
  rewrite A, B. fold (opposite_y m j).
  change (image (kind_of (bc m YMIN)) (kind_of (bc m YMAX)) (ny m) (gw m) (opposite_y m j)) with (image_y m (opposite_y m j)).
  change (mirrored (kind_of (bc m YMIN)) (kind_of (bc m YMAX)) (ny m) (gw m) (opposite_y m j)) with (mirrored_y m (opposite_y m j)).
  replace (opposite_y m (ny m + 2 * gw m - 1 - image_y m (opposite_y m j))) with (image_y m (opposite_y m j)) by (unfold opposite_y; lia).
  unfold flip_if, odd_if. destruct (v =? IV)%Z, (mirrored_x m i && _)%bool, (mirrored_y m (opposite_y m j) && _)%bool; rewrite ?negate_R; ring.
Qed.

(** ** Time steps *)
Lemma red_R_same {J} (act val act' val' : J -> _) f f' init l l' (v v' : R) :
  (forall i a, f i a = if act i : bool then Rmax a (val i) else a) ->
  (forall i a, f' i a = if act' i : bool then Rmax a (val' i) else a) ->
  (forall i, In i l -> act i = true -> exists j, In j l' /\ act' j = true /\ val' j = val i) ->
  (forall j, In j l' -> act' j = true -> exists i, In i l /\ act i = true /\ val i = val' j) ->
  reduction f max_join init l v -> reduction f' max_join init l' v' -> v = v'.
Proof.
  intros Hf Hf' H1 H2 HR HR'.
  destruct (red_upper (fun _ => True) R_lt_irrefl R_lt_trans R_lt_total R_max_lt act val init f
    (fun i a _ => Hf i a) I l v (fun _ _ _ => I) HR) as (_ & B & C & D).
  destruct (red_upper (fun _ => True) R_lt_irrefl R_lt_trans R_lt_total R_max_lt act' val' init f'
    (fun i a _ => Hf' i a) I l' v' (fun _ _ _ => I) HR') as (_ & B' & C' & D').
  apply R_nlt in C, C'. apply Rle_antisym.
  - destruct B as [->|(i & Hi & Ha & ->)]; auto.
    destruct (H1 i Hi Ha) as (j & Hj & Haj & <-). apply R_nlt. auto.
  - destruct B' as [->|(j & Hj & Ha & ->)]; auto.
    destruct (H2 j Hj Ha) as (i & Hi & Hai & <-). apply R_nlt. auto.
Qed.

(** Two fields whose cells have pairwise the same signal speeds have the same time step. *)
Lemma dt_local2_same m m' (S S' : hset R) g U G U' G' (p p' : Z -> Z -> Z * Z) d d' :
  (0 <= gw m)%Z -> (0 <= gw m')%Z -> cfl S = cfl S' ->
  (forall i j, phys2 m i j -> phys2 m' (fst (p i j)) (snd (p i j)) /\
     speeds2 S' U' (fst (p i j)) (snd (p i j)) = speeds2 S U i j /\
     gravity_speeds2 S' U' G' (fst (p i j)) (snd (p i j)) = gravity_speeds2 S U G i j) ->
  (forall i j, phys2 m' i j -> phys2 m (fst (p' i j)) (snd (p' i j)) /\
     speeds2 S U (fst (p' i j)) (snd (p' i j)) = speeds2 S' U' i j /\
     gravity_speeds2 S U G (fst (p' i j)) (snd (p' i j)) = gravity_speeds2 S' U' G' i j) ->
  dt_local2 m S g U G d -> dt_local2 m' S' g U' G' d' -> d = d'.
Proof.
  intros Hg Hg' Hc H1 H2 (v & HR & ->) (w & HR' & ->). rewrite Hc. f_equal. destruct (g_enabled g).
  - refine (red_R_same (fun c => inner2 m (fst c) (snd c)) (fun c => gravity_speeds2 S U G (fst c) (snd c))
      (fun c => inner2 m' (fst c) (snd c)) (fun c => gravity_speeds2 S' U' G' (fst c) (snd c)) _ _ _ _ _ v w _ _ _ _ HR HR').
    + intros [i j] a. reflexivity.
    + intros [i j] a. reflexivity.
    + intros [i j] _ Hp. apply inner2_phys in Hp. destruct (H1 i j Hp) as (A & _ & B).
      exists (p i j). split; [rewrite (surjective_pairing (p i j)); apply phys_cells2; auto|]. split; [apply inner2_phys; auto|exact B].
    + intros [i j] _ Hp. apply inner2_phys in Hp. destruct (H2 i j Hp) as (A & _ & B).
      exists (p' i j). split; [rewrite (surjective_pairing (p' i j)); apply phys_cells2; auto|]. split; [apply inner2_phys; auto|exact B].
  - refine (red_R_same (fun c => inner2 m (fst c) (snd c)) (fun c => speeds2 S U (fst c) (snd c))
      (fun c => inner2 m' (fst c) (snd c)) (fun c => speeds2 S' U' (fst c) (snd c)) _ _ _ _ _ v w _ _ _ _ HR HR').
    + intros [i j] a. reflexivity.
    + intros [i j] a. reflexivity.
    + intros [i j] _ Hp. apply inner2_phys in Hp. destruct (H1 i j Hp) as (A & B & _).
      exists (p i j). split; [rewrite (surjective_pairing (p i j)); apply phys_cells2; auto|]. split; [apply inner2_phys; auto|exact B].
    + intros [i j] _ Hp. apply inner2_phys in Hp. destruct (H2 i j Hp) as (A & B & _).
      exists (p' i j). split; [rewrite (surjective_pairing (p' i j)); apply phys_cells2; auto|]. split; [apply inner2_phys; auto|exact B].
Qed.

(** Speeds of mirrored and exchanged states. *)
Lemma prim2_mirror_all (S : hset R) u : prim2 S (mirror u) = (mirror (fst (prim2 S u)), snd (prim2 S u)).
Proof.
  rewrite (surjective_pairing (prim2 S (mirror u))), prim2_mirror. f_equal.
  unfold prim2, mirror, mk2. cbv zeta. cbn [snd hd hp hu hv hw]. Rn.
  f_equal. f_equal. f_equal. f_equal. f_equal. unfold Rdiv. ring.
Qed.
Lemma prim2_mirror_y_all (S : hset R) u : prim2 S (mirror_y u) = (mirror_y (fst (prim2 S u)), snd (prim2 S u)).
Proof.
  rewrite (surjective_pairing (prim2 S (mirror_y u))), prim2_mirror_y. f_equal.
  unfold prim2, mirror_y, mk2. cbv zeta. cbn [snd hd hp hu hv hw]. Rn.
  f_equal. f_equal. f_equal. f_equal. f_equal. unfold Rdiv. ring.
Qed.
Lemma prim2_swap_all (S : hset R) u : prim2 (swap_set S) (swap_uv u) = (swap_uv (fst (prim2 S u)), snd (prim2 S u)).
Proof.
  change (prim2 (swap_set S) (swap_uv u)) with (prim2 S (swap_uv u)).
  rewrite (surjective_pairing (prim2 S (swap_uv u))), prim2_swap. f_equal.
  unfold prim2, swap_uv, mk2. cbv zeta. cbn [snd hd hp hu hv hw]. Rn.
  f_equal. f_equal. f_equal. f_equal. f_equal. unfold Rdiv. ring.
Qed.

Lemma speeds_reflect m (S : hset R) U G i j :
  speeds2 S (reflect_x m U) i j = speeds2 S U (opposite m i) j /\
  gravity_speeds2 S (reflect_x m U) (reflect_gx m G) i j = gravity_speeds2 S U G (opposite m i) j.
Proof.
  unfold speeds2, gravity_speeds2.
  change (cell_state (reflect_x m U) i j) with (mirror (cell_state U (opposite m i) j)).
  rewrite prim2_mirror_all. destruct (prim2 S (cell_state U (opposite m i) j)) as [q c].
  unfold mirror, reflect_gx, odd_if, IX, IY. cbn [fst snd hd hp hu hv hw]. Rn.
  cbv beta iota delta [Z.eqb Pos.eqb]. rewrite !Rabs_Ropp. auto.
Qed.
Lemma speeds_reflect_y m (S : hset R) U G i j :
  speeds2 S (reflect_y m U) i j = speeds2 S U i (opposite_y m j) /\
  gravity_speeds2 S (reflect_y m U) (reflect_gy m G) i j = gravity_speeds2 S U G i (opposite_y m j).
Proof.
  unfold speeds2, gravity_speeds2.
  change (cell_state (reflect_y m U) i j) with (mirror_y (cell_state U i (opposite_y m j))).
  rewrite prim2_mirror_y_all. destruct (prim2 S (cell_state U i (opposite_y m j))) as [q c].
  unfold mirror_y, reflect_gy, odd_if, IX, IY. cbn [fst snd hd hp hu hv hw]. Rn.
  cbv beta iota delta [Z.eqb Pos.eqb]. rewrite !Rabs_Ropp. auto.
Qed.
Lemma speeds_swap (S : hset R) U G i j :
  speeds2 (swap_set S) (transpose U) i j = speeds2 S U j i /\
  gravity_speeds2 (swap_set S) (transpose U) (swap_g G) i j = gravity_speeds2 S U G j i.
Proof.
  unfold speeds2, gravity_speeds2.
  change (cell_state (transpose U) i j) with (swap_uv (cell_state U j i)).
  rewrite prim2_swap_all. destruct (prim2 S (cell_state U j i)) as [q c].
  change (swap_g G i j IX) with (G j i IY). change (swap_g G i j IY) with (G j i IX).
  unfold swap_uv, swap_set, corrected. cbn [fst snd hd hp hu hv hw dx dy cfl]. Rn.
  split; [ring|]. rewrite (Rmin_comm (dy S) (dx S)), (Rplus_comm (Rabs (G j i IY))).
  replace (0 + (c + Rabs (hv q)) + (c + Rabs (hu q))) with (0 + (c + Rabs (hu q)) + (c + Rabs (hv q))) by ring. reflexivity.
Qed.

(** ** Runs carried from one mesh to another

    [phi] carries the states of one problem to those of another, [psi] the
    accelerations; if it commutes with one step and keeps the time step, it carries
    whole runs with all their files. *)
Section Carry.
Variables m m' : mesh.
Variables S S' : hset R.
Variable g : gravp.
Variable phi : field2 R -> field2 R.
Variable psi : field2 R -> field2 R.
Hypothesis Hr : ready2 m S.
Hypothesis Hr' : ready2 m' S'.
Hypothesis Hext : forall u z, same_phys m u z -> same_phys m' (phi u) (phi z).
Variable okG : field2 R -> Prop.
Hypothesis Hstep : forall dt u G, okG G ->
  same_phys m' (step2 S' g dt (extend m' (phi u)) (psi G)) (phi (step2 S g dt (extend m u) G)).
Hypothesis Hdt : forall U G d d', okG G -> dt_local2 m S g U G d -> dt_local2 m' S' g (phi U) (psi G) d' -> d = d'.

(** The second run shows what the first shows, carried over: the same times, time
    steps, iteration and file numbers; the files correspond one by one, and so do
    the states. *)
Definition carried : sol (T := R) (M := store R) (D := field2 R) -> sol (T := R) (M := store R) (D := field2 R) -> Prop :=
  same_sol (fun n a b => same_phys m' (field_of (in_array n) b) (phi (field_of (in_array n) a)))
           (fun u z => same_phys m' z (phi u)).

Let rel G (n : nat) (a b : store R) : Prop :=
  same_phys m' (field_of (in_array n) b) (phi (field_of (in_array n) a)) /\
  (forall i j v, a (L2 A_G i j v) = G i j v) /\ (forall i j v, b (L2 A_G i j v) = psi G i j v).

Lemma rel_carried G s z : same_sol (rel G) (fun u z => same_phys m' z (phi u)) s z -> carried s z.
Proof. intros (A & B & C & D & E & F & _). repeat (split; auto). Qed.

Lemma steps_carried inb inb' iv iv' n dts s1 s1' s2 s2' :
  okG (field_of A_G s1) ->
  (forall i j v, field_of A_G s2 i j v = psi (field_of A_G s1) i j v) ->
  same_phys m' (field_of (cur n) s2) (phi (field_of (cur n) s1)) ->
  execs inb s1 (steps2 m S g iv n dts) s1' ->
  execs inb' s2 (steps2 m' S' g iv' n dts) s2' ->
  same_phys m' (final_field n dts s2') (phi (final_field n dts s1')).
Proof.
  intros HG HG2 HU E1 E2. destruct Hr as (Hw & Hg & Hn & Hs & Hv), Hr' as (Hw' & Hg' & Hn' & Hs' & Hv').
  destruct (run_refines m S g Hw Hg inb iv (refines_R m S g inb iv Hw Hg Hn Hs Hv) _ _ _ _ E1) as [A _].
  destruct (run_refines m' S' g Hw' Hg' inb' iv' (refines_R m' S' g inb' iv' Hw' Hg' Hn' Hs' Hv') _ _ _ _ E2) as [B _].
  intros i j v Hp Hvv. unfold final_field. rewrite B by auto.
  rewrite (run_spec_ext m' S' g Hw' Hg' dts _ (phi (field_of (cur n) s1)) _ (psi (field_of A_G s1))); auto.
  assert (X : forall dts u, same_phys m' (run_spec m' S' g (psi (field_of A_G s1)) dts (phi u)) (phi (run_spec m S g (field_of A_G s1) dts u))).
  { clear - HG Hstep Hw' Hg'. induction dts as [|dt dts IH]; intros u; cbn [run_spec]; [intros i j v _ _; reflexivity|].
    intros i j v Hp Hv. rewrite <- IH by auto. apply run_spec_ext; auto. }
  rewrite X by auto. symmetry. apply Hext; auto.
Qed.

Lemma run_carried inb inb' iv iv' c t0 k0 s0 s0' mem mem' s s' z z' tr ztr :
  okG (field_of A_G s0) ->
  (forall i j v, field_of A_G s0' i j v = psi (field_of A_G s0) i j v) ->
  same_phys m' (field_of A_U s0') (phi (field_of A_U s0)) ->
  built2 m inb s0 mem -> built2 m' inb' s0' mem' ->
  start t0 k0 mem s -> start t0 k0 mem' z -> s_dt s = s_dt z ->
  main (hydro2 m S g inb iv) c s tr s' -> main (hydro2 m' S' g inb' iv') c z ztr z' ->
  Forall2 carried tr ztr /\ carried s' z'.
Proof.
  intros HG HG2 HU HB HB' Hs Hz Edt H1 H2.
  assert (X : Forall2 (same_sol (rel (field_of A_G s0)) (fun u z => same_phys m' z (phi u))) tr ztr /\
              same_sol (rel (field_of A_G s0)) (fun u z => same_phys m' z (phi u)) s' z').
  { destruct Hr as (Hw & Hg & Hn & Hsl & Hv), Hr' as (Hw' & Hg' & Hn' & Hsl' & Hv').
    refine (both_main (hydro2 m S g inb iv) c (hydro2 m' S' g inb' iv') (rel (field_of A_G s0)) (rel (field_of A_G s0))
      (fun u z => same_phys m' z (phi u)) _ _ _ _ s tr s' z ztr z' _ H1 H2).
    - intros n a a' b b' X -> ->. exact X.
    - intros n a b d d2 (A & B & C) D1 D2. cbn [local_dt hydro2] in D1, D2.
      apply (Hdt (field_of (in_array n) a) (field_of A_G s0) d d2 HG).
      + revert D1. apply dt_local2_ext; auto. intros i j v _ _. reflexivity.
      + revert D2. apply dt_local2_ext; auto.
    - intros dt n a a' b b' (A & B & C) X1 X2. cbn [after hydro2] in X1, X2.
      destruct (refines_R m S g inb iv Hw Hg Hn Hsl Hv dt n a a' X1) as [R1 R2].
      destruct (refines_R m' S' g inb' iv' Hw' Hg' Hn' Hsl' Hv' dt n b b' X2) as [Q1 Q2].
      split; [|split; intros; [rewrite R2|rewrite Q2]; auto].
      intros i j v Hp Hvv. change (in_array (Datatypes.S n)) with (cur (Datatypes.S n)). rewrite cur_S.
      rewrite Q1 by auto.
      transitivity (step2 S' g dt (extend m' (phi (field_of (in_array n) a))) (psi (field_of A_G s0)) i j v).
      { apply step_ext; auto. }
      rewrite Hstep by auto. apply Hext; auto. intros i' j' v' Hp' Hv'0. symmetry. rewrite R1 by auto.
      apply step_ext; auto. intros ? ? ? _ _. reflexivity.
    - intros n a b (A & _). exact A.
    - destruct Hs as (E1 & E2 & E3 & E4 & E5), Hz as (F1 & F2 & F3 & F4 & F5).
      unfold same_sol. rewrite E1, E2, E3, E4, E5, F1, F2, F3, F4, F5.
      destruct (built2_holds m inb s0 mem Hw ltac:(lia) HB) as [B1 B2].
      destruct (built2_holds m' inb' s0' mem' Hw' ltac:(lia) HB') as [B1' B2'].
      repeat (split; auto).
      + intros i j v Hp Hvv. rewrite B1' by auto. rewrite HU by auto. apply Hext; auto.
        intros a b w Ha Hb. symmetry. apply B1; auto.
      + intros. rewrite B2'. apply HG2. }
  destruct X as [A B]. split; [|apply (rel_carried _ _ _ B)].
  clear - A. induction A; constructor; auto. apply (rel_carried _ _ _ H).
Qed.
End Carry.

(** ** The maps *)
Section Maps.
Variable m : mesh.
Variable S : hset R.
Variable g : gravp.
Hypothesis Hr : ready2 m S.

Lemma ready_reflect : ready2 (reflect_mesh m) S.
Proof. destruct Hr as (Hw & Hg & Hn & Hs & Hv). split; [apply wide2_reflect; auto|]. repeat (split; auto). Qed.
Lemma ready_reflect_y : ready2 (reflect_mesh_y m) S.
Proof.
  destruct Hr as ((H1 & H2 & H3 & H4 & H5 & H6) & Hg & Hn & Hs & Hv). split; [|repeat (split; auto)].
  repeat split; try apply H3; try apply H4; try apply H5; try apply H6; auto.
Qed.
Lemma ready_swap : ready2 (swap_mesh m) (swap_set S).
Proof. destruct Hr as (Hw & Hg & Hn & Hs & Hv). split; [apply wide2_swap; auto|]. repeat (split; auto). Qed.

Lemma opposite_phys i j : phys2 m i j -> phys2 (reflect_mesh m) (opposite m i) j /\ phys2 m (opposite m i) j.
Proof. intros [H1 H2]. unfold phys2, physical, opposite, reflect_mesh in *. cbn [nx ny gw]. lia. Qed.
Lemma opposite_y_phys i j : phys2 m i j -> phys2 (reflect_mesh_y m) i (opposite_y m j) /\ phys2 m i (opposite_y m j).
Proof. intros [H1 H2]. unfold phys2, physical, opposite_y, reflect_mesh_y in *. cbn [nx ny gw]. lia. Qed.
Lemma opposite_twice i : opposite m (opposite m i) = i.
Proof. unfold opposite. lia. Qed.
Lemma opposite_y_twice i : opposite_y m (opposite_y m i) = i.
Proof. unfold opposite_y. lia. Qed.

Lemma ext_reflect u z : same_phys m u z -> same_phys (reflect_mesh m) (reflect_x m u) (reflect_x m z).
Proof. intros H i j v Hp Hv. unfold reflect_x. rewrite H; auto. apply opposite_phys. exact Hp. Qed.
Lemma ext_reflect_y u z : same_phys m u z -> same_phys (reflect_mesh_y m) (reflect_y m u) (reflect_y m z).
Proof. intros H i j v Hp Hv. unfold reflect_y. rewrite H; auto. apply opposite_y_phys. exact Hp. Qed.
Lemma ext_swap u z : same_phys m u z -> same_phys (swap_mesh m) (transpose u) (transpose z).
Proof.
  intros H i j v [H1 H2] Hv. unfold transpose. apply H; [split; [exact H2|exact H1]|apply swap_var_range; auto].
Qed.

Lemma steps_reflect dt u G : sane S -> solver S <> R_APPROX -> True ->
  same_phys (reflect_mesh m) (step2 S g dt (extend (reflect_mesh m) (reflect_x m u)) (reflect_gx m G))
    (reflect_x m (step2 S g dt (extend m u) G)).
Proof.
  intros HS HA _ i j v Hp Hv. destruct Hr as (Hw & Hg & Hn & Hs & _). rewrite <- step_reflect by auto.
  apply step2_stencil; auto. intros. apply extend_reflect; auto.
Qed.
Lemma steps_reflect_y dt u G : sane S -> solver S <> R_APPROX -> True ->
  same_phys (reflect_mesh_y m) (step2 S g dt (extend (reflect_mesh_y m) (reflect_y m u)) (reflect_gy m G))
    (reflect_y m (step2 S g dt (extend m u) G)).
Proof.
  intros HS HA _ i j v Hp Hv. destruct Hr as (Hw & Hg & Hn & Hs & _). rewrite <- step_reflect_y by auto.
  apply step2_stencil; auto. intros. apply extend_reflect_y; auto.
Qed.
Lemma steps_swap dt u G : True ->
  same_phys (swap_mesh m) (step2 (swap_set S) g dt (extend (swap_mesh m) (transpose u)) (swap_g G))
    (transpose (step2 S g dt (extend m u) G)).
Proof.
  intros _ i j v Hp Hv. rewrite <- step_transpose by auto.
  apply step2_stencil; auto. intros. apply extend_transpose; auto.
Qed.

Lemma dt_reflect U G d d' : True -> dt_local2 m S g U G d ->
  dt_local2 (reflect_mesh m) S g (reflect_x m U) (reflect_gx m G) d' -> d = d'.
Proof.
  intros _. destruct Hr as (Hw & Hg & _).
  apply (dt_local2_same _ _ _ _ _ _ _ _ _ (fun i j => (opposite m i, j)) (fun i j => (opposite m i, j)));
    try reflexivity; try (cbn [gw reflect_mesh]; lia); intros i j Hp; cbn [fst snd];
    destruct (opposite_phys i j Hp) as [P1 P2].
  - destruct (speeds_reflect m S U G (opposite m i) j) as [-> ->]. rewrite opposite_twice. auto.
  - destruct (speeds_reflect m S U G i j) as [-> ->]. auto.
Qed.
Lemma dt_reflect_y U G d d' : True -> dt_local2 m S g U G d ->
  dt_local2 (reflect_mesh_y m) S g (reflect_y m U) (reflect_gy m G) d' -> d = d'.
Proof.
  intros _. destruct Hr as (Hw & Hg & _).
  apply (dt_local2_same _ _ _ _ _ _ _ _ _ (fun i j => (i, opposite_y m j)) (fun i j => (i, opposite_y m j)));
    try reflexivity; try (cbn [gw reflect_mesh_y]; lia); intros i j Hp; cbn [fst snd];
    destruct (opposite_y_phys i j Hp) as [P1 P2].
  - destruct (speeds_reflect_y m S U G i (opposite_y m j)) as [-> ->]. rewrite opposite_y_twice. auto.
  - destruct (speeds_reflect_y m S U G i j) as [-> ->]. auto.
Qed.
Lemma dt_swap U G d d' : True -> dt_local2 m S g U G d ->
  dt_local2 (swap_mesh m) (swap_set S) g (transpose U) (swap_g G) d' -> d = d'.
Proof.
  intros _. destruct Hr as (Hw & Hg & _).
  apply (dt_local2_same _ _ _ _ _ _ _ _ _ (fun i j => (j, i)) (fun i j => (j, i)));
    try reflexivity; try (cbn [gw swap_mesh]; lia); intros i j Hp; cbn [fst snd];
    assert (phys2 (swap_mesh m) j i -> phys2 m i j) by (intros [A B]; split; [exact B|exact A]);
    assert (phys2 m j i -> phys2 (swap_mesh m) i j) by (intros [A B]; split; [exact B|exact A]).
  - destruct (speeds_swap S U G j i) as [-> ->]. destruct Hp as [P1 P2]. repeat split; first [apply P1|apply P2].
  - destruct (speeds_swap S U G i j) as [-> ->]. destruct Hp as [P1 P2]. repeat split; first [apply P1|apply P2].
Qed.
Lemma dt_shift a b U G d d' : periodic_x m -> periodic_y m -> dt_local2 m S g U G d -> dt_local2 m S g (shift2 m a b U) (shift2 m a b G) d' -> d = d'.
Proof.
  intros PX PY. destruct Hr as (Hw & Hg & _). pose proof Hw as (_ & _ & (Hx & _) & _ & (Hy & _) & _).
  assert (X : forall i, physical (nx m) (gw m) i -> wrap_x m i = i).
  { intros i Hi. unfold wrap_x, physical in *. rewrite Z.mod_small; lia. }
  assert (Y : forall j, physical (ny m) (gw m) j -> wrap_y m j = j).
  { intros j Hj. unfold wrap_y, physical in *. rewrite Z.mod_small; lia. }
  assert (E : forall U G i j, speeds2 S (shift2 m a b U) i j = speeds2 S U (wrap_x m (i + a)) (wrap_y m (j + b)) /\
    gravity_speeds2 S (shift2 m a b U) (shift2 m a b G) i j = gravity_speeds2 S U G (wrap_x m (i + a)) (wrap_y m (j + b))) by (split; reflexivity).
  apply (dt_local2_same _ _ _ _ _ _ _ _ _ (fun i j => (wrap_x m (i - a), wrap_y m (j - b))) (fun i j => (wrap_x m (i + a), wrap_y m (j + b))));
    try reflexivity; try lia; intros i j [P1 P2]; cbn [fst snd].
  - destruct (E U G (wrap_x m (i - a)) (wrap_y m (j - b))) as [-> ->].
    rewrite wrap_x_add, wrap_y_add by auto. replace (i - a + a)%Z with i by lia. replace (j - b + b)%Z with j by lia.
    rewrite (X i), (Y j) by auto. split; [split; [apply wrap_x_phys|apply wrap_y_phys]; auto|auto].
  - destruct (E U G i j) as [-> ->]. split; [split; [apply wrap_x_phys|apply wrap_y_phys]; auto|auto].
Qed.
End Maps.

(** ** C62

    The mirror image of a run is a run: on the mesh whose boundary conditions at the
    two ends are exchanged, from the mirrored initial state, every schedule and every
    variant of the implementation gives the mirrored states.  The two-shock solver is
    left out: its flux is not mirrored ([C20_mirror_two_shock_refuted]). *)
Theorem C62_mirror_x :
  forall m (S : hset R) g inb inb' iv iv' n dts s1 s1' s2 s2',
  ready2 m S -> sane S -> solver S <> R_APPROX ->
  (forall i j v, field_of A_G s2 i j v = reflect_gx m (field_of A_G s1) i j v) ->
  same_phys m (field_of (cur n) s2) (reflect_x m (field_of (cur n) s1)) ->
  execs inb s1 (steps2 m S g iv n dts) s1' ->
  execs inb' s2 (steps2 (reflect_mesh m) S g iv' n dts) s2' ->
  same_phys m (final_field n dts s2') (reflect_x m (final_field n dts s1')).
Proof.
  intros m S g inb inb' iv iv' n dts s1 s1' s2 s2' Hr HS HA HG HU E1 E2.
  exact (steps_carried m (reflect_mesh m) S S g (reflect_x m) (reflect_gx m) Hr (ready_reflect m S Hr) (ext_reflect m)
    (fun _ => True) (fun dt u G H => steps_reflect m S g Hr dt u G HS HA H) inb inb' iv iv' n dts s1 s1' s2 s2' I HG HU E1 E2).
Qed.
Print Assumptions C62_mirror_x.

Theorem C62_mirror_y :
  forall m (S : hset R) g inb inb' iv iv' n dts s1 s1' s2 s2',
  ready2 m S -> sane S -> solver S <> R_APPROX ->
  (forall i j v, field_of A_G s2 i j v = reflect_gy m (field_of A_G s1) i j v) ->
  same_phys m (field_of (cur n) s2) (reflect_y m (field_of (cur n) s1)) ->
  execs inb s1 (steps2 m S g iv n dts) s1' ->
  execs inb' s2 (steps2 (reflect_mesh_y m) S g iv' n dts) s2' ->
  same_phys m (final_field n dts s2') (reflect_y m (final_field n dts s1')).
Proof.
  intros m S g inb inb' iv iv' n dts s1 s1' s2 s2' Hr HS HA HG HU E1 E2.
  exact (steps_carried m (reflect_mesh_y m) S S g (reflect_y m) (reflect_gy m) Hr (ready_reflect_y m S Hr) (ext_reflect_y m)
    (fun _ => True) (fun dt u G H => steps_reflect_y m S g Hr dt u G HS HA H) inb inb' iv iv' n dts s1 s1' s2 s2' I HG HU E1 E2).
Qed.
Print Assumptions C62_mirror_y.

(** Whole runs, each with the time steps it computes for itself. *)
Theorem C62_mirror_x_run :
  forall m (S : hset R) g inb inb' iv iv' c t0 k0 s0 s0' mem mem' s s' z z' tr ztr,
  ready2 m S -> sane S -> solver S <> R_APPROX ->
  (forall i j v, field_of A_G s0' i j v = reflect_gx m (field_of A_G s0) i j v) ->
  same_phys m (field_of A_U s0') (reflect_x m (field_of A_U s0)) ->
  built2 m inb s0 mem -> built2 (reflect_mesh m) inb' s0' mem' ->
  start t0 k0 mem s -> start t0 k0 mem' z -> s_dt s = s_dt z ->
  main (hydro2 m S g inb iv) c s tr s' -> main (hydro2 (reflect_mesh m) S g inb' iv') c z ztr z' ->
  Forall2 (carried m (reflect_x m)) tr ztr /\ carried m (reflect_x m) s' z'.
Proof.
  intros m S g inb inb' iv iv' c t0 k0 s0 s0' mem mem' s s' z z' tr ztr Hr HS HA HG HU HB HB' Hs Hz Ed H1 H2.
  exact (run_carried m (reflect_mesh m) S S g (reflect_x m) (reflect_gx m) Hr (ready_reflect m S Hr) (ext_reflect m)
    (fun _ => True) (fun dt u G H => steps_reflect m S g Hr dt u G HS HA H) (dt_reflect m S g Hr)
    inb inb' iv iv' c t0 k0 s0 s0' mem mem' s s' z z' tr ztr I HG HU HB HB' Hs Hz Ed H1 H2).
Qed.
Print Assumptions C62_mirror_x_run.

Theorem C62_mirror_y_run :
  forall m (S : hset R) g inb inb' iv iv' c t0 k0 s0 s0' mem mem' s s' z z' tr ztr,
  ready2 m S -> sane S -> solver S <> R_APPROX ->
  (forall i j v, field_of A_G s0' i j v = reflect_gy m (field_of A_G s0) i j v) ->
  same_phys m (field_of A_U s0') (reflect_y m (field_of A_U s0)) ->
  built2 m inb s0 mem -> built2 (reflect_mesh_y m) inb' s0' mem' ->
  start t0 k0 mem s -> start t0 k0 mem' z -> s_dt s = s_dt z ->
  main (hydro2 m S g inb iv) c s tr s' -> main (hydro2 (reflect_mesh_y m) S g inb' iv') c z ztr z' ->
  Forall2 (carried m (reflect_y m)) tr ztr /\ carried m (reflect_y m) s' z'.
Proof.
  intros m S g inb inb' iv iv' c t0 k0 s0 s0' mem mem' s s' z z' tr ztr Hr HS HA HG HU HB HB' Hs Hz Ed H1 H2.
  exact (run_carried m (reflect_mesh_y m) S S g (reflect_y m) (reflect_gy m) Hr (ready_reflect_y m S Hr) (ext_reflect_y m)
    (fun _ => True) (fun dt u G H => steps_reflect_y m S g Hr dt u G HS HA H) (dt_reflect_y m S g Hr)
    inb inb' iv iv' c t0 k0 s0 s0' mem mem' s s' z z' tr ztr I HG HU HB HB' Hs Hz Ed H1 H2).
Qed.
Print Assumptions C62_mirror_y_run.

(** A symmetric problem stays symmetric: on a mesh with the same boundary condition
    at both ends of an axis, every file of a run from a symmetric initial state is
    symmetric. *)
Definition even_x (m : mesh) (u : field2 R) : Prop := same_phys m u (reflect_x m u).
Definition even_y (m : mesh) (u : field2 R) : Prop := same_phys m u (reflect_y m u).

Lemma carried_files m phi s z : carried m phi s z -> s_files s = s_files z ->
  Forall (fun f => same_phys m (f_data f) (phi (f_data f))) (s_files s).
Proof.
  intros (_ & _ & _ & _ & HF & _) E. rewrite <- E in HF. clear E.
  induction (s_files s) as [|f l IH]; [constructor|].
  inversion HF; subst. constructor; [apply H2|auto].
Qed.

Lemma forall2_diag {A} (P : A -> A -> Prop) l : Forall2 P l l -> Forall (fun x => P x x) l.
Proof. induction l; intros H; inversion H; subst; constructor; auto. Qed.

Lemma reflect_same m : bc m XMIN = bc m XMAX -> reflect_mesh m = m.
Proof.
  intros H. destruct m as [a b c d e f bb]. unfold reflect_mesh. cbn [nx ny nz gw nbvar p_mhd bc] in *. f_equal.
  apply FunctionalExtensionality.functional_extensionality. intros []; auto.
Qed.
Lemma reflect_same_y m : bc m YMIN = bc m YMAX -> reflect_mesh_y m = m.
Proof.
  intros H. destruct m as [a b c d e f bb]. unfold reflect_mesh_y. cbn [nx ny nz gw nbvar p_mhd bc] in *. f_equal.
  apply FunctionalExtensionality.functional_extensionality. intros []; auto.
Qed.

Theorem C62_symmetric_x :
  forall m (S : hset R) g inb iv c t0 k0 s0 mem s s' tr,
  ready2 m S -> sane S -> solver S <> R_APPROX -> bc m XMIN = bc m XMAX ->
  (forall i j v, field_of A_G s0 i j v = reflect_gx m (field_of A_G s0) i j v) ->
  even_x m (field_of A_U s0) ->
  built2 m inb s0 mem -> start t0 k0 mem s ->
  main (hydro2 m S g inb iv) c s tr s' ->
  Forall (fun f => even_x m (f_data f)) (s_files s') /\
  Forall (fun x => even_x m (field_of (in_array (s_it x)) (s_mem x))) tr.
Proof.
  intros m S g inb iv c t0 k0 s0 mem s s' tr Hr HS HA Hb HG HU HB Hs H1.
  pose proof (C62_mirror_x_run m S g inb inb iv iv c t0 k0 s0 s0 mem mem s s' s s' tr tr Hr HS HA HG HU HB) as X.
  rewrite (reflect_same m Hb) in X. destruct (X HB Hs Hs eq_refl H1 H1) as [A B].
  split; [exact (carried_files m _ s' s' B eq_refl)|].
  apply forall2_diag in A. revert A. apply Forall_impl. intros x (_ & _ & _ & _ & _ & E). exact E.
Qed.
Print Assumptions C62_symmetric_x.

Theorem C62_symmetric_y :
  forall m (S : hset R) g inb iv c t0 k0 s0 mem s s' tr,
  ready2 m S -> sane S -> solver S <> R_APPROX -> bc m YMIN = bc m YMAX ->
  (forall i j v, field_of A_G s0 i j v = reflect_gy m (field_of A_G s0) i j v) ->
  even_y m (field_of A_U s0) ->
  built2 m inb s0 mem -> start t0 k0 mem s ->
  main (hydro2 m S g inb iv) c s tr s' ->
  Forall (fun f => even_y m (f_data f)) (s_files s') /\
  Forall (fun x => even_y m (field_of (in_array (s_it x)) (s_mem x))) tr.
Proof.
  intros m S g inb iv c t0 k0 s0 mem s s' tr Hr HS HA Hb HG HU HB Hs H1.
  pose proof (C62_mirror_y_run m S g inb inb iv iv c t0 k0 s0 s0 mem mem s s' s s' tr tr Hr HS HA HG HU HB) as X.
  rewrite (reflect_same_y m Hb) in X. destruct (X HB Hs Hs eq_refl H1 H1) as [A B].
  split; [exact (carried_files m _ s' s' B eq_refl)|].
  apply forall2_diag in A. revert A. apply Forall_impl. intros x (_ & _ & _ & _ & _ & E). exact E.
Qed.
Print Assumptions C62_symmetric_y.

(** On the line of cells through the middle of a symmetric problem nothing moves across. *)
Theorem C62_nothing_crosses_the_middle :
  forall m u i j, even_x m u -> phys2 m i j -> opposite m i = i -> u i j IU = 0.
Proof.
  intros m u i j HE Hp Ho. pose proof (HE i j IU Hp ltac:(unfold IU; lia)) as E.
  unfold reflect_x, odd_if in E. rewrite Ho, Z.eqb_refl in E. lra.
Qed.
Print Assumptions C62_nothing_crosses_the_middle.

(** ** C37 and C38 for whole runs, with the time steps the runs compute *)
Theorem C38_axis_exchange_run :
  forall m (S : hset R) g inb inb' iv iv' c t0 k0 s0 s0' mem mem' s s' z z' tr ztr,
  ready2 m S ->
  (forall i j v, field_of A_G s0' i j v = swap_g (field_of A_G s0) i j v) ->
  same_phys (swap_mesh m) (field_of A_U s0') (transpose (field_of A_U s0)) ->
  built2 m inb s0 mem -> built2 (swap_mesh m) inb' s0' mem' ->
  start t0 k0 mem s -> start t0 k0 mem' z -> s_dt s = s_dt z ->
  main (hydro2 m S g inb iv) c s tr s' -> main (hydro2 (swap_mesh m) (swap_set S) g inb' iv') c z ztr z' ->
  Forall2 (carried (swap_mesh m) transpose) tr ztr /\ carried (swap_mesh m) transpose s' z'.
Proof.
  intros m S g inb inb' iv iv' c t0 k0 s0 s0' mem mem' s s' z z' tr ztr Hr HG HU HB HB' Hs Hz Ed H1 H2.
  exact (run_carried m (swap_mesh m) S (swap_set S) g transpose swap_g Hr (ready_swap m S Hr) (ext_swap m)
    (fun _ => True) (steps_swap m S g) (dt_swap m S g Hr)
    inb inb' iv iv' c t0 k0 s0 s0' mem mem' s s' z z' tr ztr I HG HU HB HB' Hs Hz Ed H1 H2).
Qed.
Print Assumptions C38_axis_exchange_run.

Theorem C37_translation_run :
  forall m (S : hset R) g inb inb' iv iv' c t0 k0 s0 s0' mem mem' s s' z z' tr ztr a b,
  ready2 m S -> periodic_x m -> periodic_y m -> periodic_G m (field_of A_G s0) ->
  (forall i j v, field_of A_G s0' i j v = shift2 m a b (field_of A_G s0) i j v) ->
  same_phys m (field_of A_U s0') (shift2 m a b (field_of A_U s0)) ->
  built2 m inb s0 mem -> built2 m inb' s0' mem' ->
  start t0 k0 mem s -> start t0 k0 mem' z -> s_dt s = s_dt z ->
  main (hydro2 m S g inb iv) c s tr s' -> main (hydro2 m S g inb' iv') c z ztr z' ->
  Forall2 (carried m (shift2 m a b)) tr ztr /\ carried m (shift2 m a b) s' z'.
Proof.
  intros m S g inb inb' iv iv' c t0 k0 s0 s0' mem mem' s s' z z' tr ztr a b Hr PX PY HP HG HU HB HB' Hs Hz Ed H1 H2.
  pose proof Hr as (Hw & Hg & Hn & Hsl & Hv).
  refine (run_carried m m S S g (shift2 m a b) (shift2 m a b) Hr Hr _ (periodic_G m) _ _
    inb inb' iv iv' c t0 k0 s0 s0' mem mem' s s' z z' tr ztr HP HG HU HB HB' Hs Hz Ed H1 H2).
  - intros u w. apply shift_ext; auto.
  - intros dt u G HGp. apply step_translate; auto.
  - intros U G d d' _. apply dt_shift; auto.
Qed.
Print Assumptions C37_translation_run.

(** ** Cases *)
Local Open Scope Z_scope.

(** A wall on the left, an open end on the right; five cells. *)
Definition ex_open2 : mesh := mkmesh 5 3 1 2 4 false (fun f => match f with XMIN => 1 | XMAX => 2 | _ => 3 end).

Lemma ready_open rs m : rs <> R_HLLD -> In m [ex_open2; reflect_mesh ex_open2; reflect_mesh_y ex_open2; ex_box2] ->
  ready2 m (ex_set rs 1).
Proof.
  assert (X : ready2 ex_open2 (ex_set rs 1) \/ rs = R_HLLD).
  { destruct (ex_ready2 R_HLLC ex_mesh2 ltac:(discriminate) ltac:(simpl; auto)) as (_ & _ & _ & Hs & _).
    destruct rs; auto; left; unfold ready2, wide2, ex_open2; cbn; (repeat split; try lia; try discriminate; try exact Hs). }
  intros Hrs [<-|[<-|[<-|[<-|[]]]]].
  - tauto.
  - apply ready_reflect. tauto.
  - apply ready_reflect_y. tauto.
  - apply ex_ready2; simpl; auto.
Qed.

Lemma run_from m rs iv (s0 : store R) :
  rs <> R_HLLD -> In m [ex_open2; reflect_mesh ex_open2; reflect_mesh_y ex_open2; ex_box2] ->
  let inb := alloc2d m (nv2 m no_gravity iv) in
  exists mem s tr s', built2 m inb s0 mem /\ start 0%R 0 mem s /\ s_dt s = 0%R /\
    main (hydro2 m (ex_set rs 1) no_gravity inb iv) ex_config s tr s'.
Proof.
  intros Hrs Hm inb. pose proof (ready_open rs m Hrs Hm) as HR.
  assert (HF : Forall (Forall (in_foot inb)) (make_boundaries2d m A_U ++ [deep_copy2 (T := R) m A_U2 A_U])).
  { destruct HR as (Hw & Hg & Hn & Hs & Hr).
    pose proof (godunov2_in_foot m (ex_set rs 1) no_gravity 1%R Hs Hr Hw Hg Hn A_U A_U2
                 (or_introl (conj eq_refl eq_refl)) iv Hs) as HF.
    unfold godunov2, godunov2_body in HF. apply Forall_app in HF. destruct HF as [HF1 HF2]. apply Forall_app. split; auto.
    apply Forall_app in HF2. destruct HF2 as [HF2 _]. inversion HF2; subst. constructor; auto. }
  destruct (in_foot_execs inb _ s0 HF) as [mem Hmem].
  set (s := mksol (D := field2 R) 0%R 0%R O 0 [] mem).
  destruct (C14_runs_complete_2d R Rnum m (ex_set rs 1) no_gravity iv ex_config s HR) as (tr & s' & HM); [discriminate|].
  exists mem, s, tr, s'. repeat (split; auto).
Qed.

(** A shock tube between a wall and an open end, with a stream along x, and its
    mirror image: both run to the end. *)
Definition tube : store R := fun l => match l with mkloc _ i _ _ v =>
  if (v =? ID) then (if i <? 4 then 1 else / 8)%R else if (v =? IP) then 2%R else if (v =? IU) then (/ 3)%R else 0%R end.
Definition tube_mirrored : store R := fun l => match l with mkloc _ i _ _ v =>
  if (v =? ID) then (if 4 <? i then 1 else / 8)%R else if (v =? IP) then 2%R else if (v =? IU) then (- / 3)%R else 0%R end.

Example C62_case : forall iv,
  let inb := alloc2d ex_open2 (nv2 ex_open2 no_gravity iv) in
  let inb' := alloc2d (reflect_mesh ex_open2) (nv2 (reflect_mesh ex_open2) no_gravity iv) in
  bc (reflect_mesh ex_open2) XMIN = 2 /\ opposite ex_open2 2 = 6 /\ opposite ex_open2 4 = 4 /\
  ready2 ex_open2 (ex_set R_HLLC 1) /\ sane (ex_set R_HLLC 1) /\ solver (ex_set R_HLLC 1) <> R_APPROX /\
  same_phys ex_open2 (field_of A_U tube_mirrored) (reflect_x ex_open2 (field_of A_U tube)) /\
  (exists mem s tr s', built2 ex_open2 inb tube mem /\ start 0%R 0 mem s /\ s_dt s = 0%R /\
     main (hydro2 ex_open2 (ex_set R_HLLC 1) no_gravity inb iv) ex_config s tr s') /\
  exists mem s tr s', built2 (reflect_mesh ex_open2) inb' tube_mirrored mem /\ start 0%R 0 mem s /\ s_dt s = 0%R /\
     main (hydro2 (reflect_mesh ex_open2) (ex_set R_HLLC 1) no_gravity inb' iv) ex_config s tr s'.
Proof.
  intros iv inb inb'.
  split; [reflexivity|]. split; [reflexivity|]. split; [reflexivity|].
  split; [apply ready_open; [discriminate|simpl; auto]|].
  split; [apply ex_steppable|]. split; [discriminate|].
  split.
  - intros i j v _ Hv. unfold field_of, reflect_x, tube, tube_mirrored, L2, opposite, odd_if, ex_open2, ID, IP, IU. cbn [nx gw].
    assert (v = 0 \/ v = 1 \/ v = 2 \/ v = 3) as [->|[->|[->| ->]]] by lia; cbv beta iota delta [Z.eqb Pos.eqb]; auto.
    replace (5 + 2 * 2 - 1 - i <? 4) with (4 <? i) by lia. reflexivity.
  - split; apply run_from; (discriminate || (simpl; auto)).
Qed.

(** Two streams that meet in the middle of a closed box. *)
Definition colliding : store R := fun l => match l with mkloc _ i j _ v =>
  if (v =? ID) then (1 + IZR j)%R else if (v =? IP) then 9%R else if (v =? IU) then (if i <? 4 then 1 else - 1)%R else 0%R end.

Example C62_symmetric_case : forall iv, exists mem s tr s',
  let inb := alloc2d ex_box2 (nv2 ex_box2 no_gravity iv) in
  ready2 ex_box2 (ex_set R_LLF 1) /\ sane (ex_set R_LLF 1) /\ bc ex_box2 XMIN = bc ex_box2 XMAX /\
  (forall i j v, 0 <= v < 4 -> 2 <= i < 6 -> 2 <= j < 5 -> field_of A_U colliding i j v = reflect_x ex_box2 (field_of A_U colliding) i j v) /\
  built2 ex_box2 inb colliding mem /\ start 0%R 0 mem s /\
  main (hydro2 ex_box2 (ex_set R_LLF 1) no_gravity inb iv) ex_config s tr s'.
Proof.
  intros iv. destruct (run_from ex_box2 R_LLF iv colliding ltac:(discriminate) ltac:(simpl; auto)) as (mem & s & tr & s' & A & B & _ & C).
  exists mem, s, tr, s'. intros inb.
  split; [apply ready_open; [discriminate|simpl; auto]|].
  split; [apply ex_steppable|]. split; [reflexivity|]. split; [|auto].
  intros i j v Hv Hi Hj. unfold field_of, reflect_x, colliding, L2, opposite, odd_if, ex_box2, ID, IP, IU. cbn [nx gw].
  assert (v = 0 \/ v = 1 \/ v = 2 \/ v = 3) as [->|[->|[->| ->]]] by lia; cbv beta iota delta [Z.eqb Pos.eqb]; auto.
  destruct (i <? 4) eqn:E.
  - replace (4 + 2 * 2 - 1 - i <? 4) with false by lia. lra.
  - replace (4 + 2 * 2 - 1 - i <? 4) with true by lia. lra.
Qed.
