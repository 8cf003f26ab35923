(** * One full 3D time step, all three implementation versions *)
From Coq Require Import ZArith List Bool Lia ZifyBool Permutation Reals Lra.
Import ListNotations.
From Verif Require Import Num Exec ExecFacts Grid GridFacts Boundaries BoundariesSpec
  BoundariesFacts BoundariesFill BoundariesNarrow HydroNum Kernels KernelFacts Atomics
  Hydro2D Hydro2DSpec Hydro2DFacts Hydro2DStep Hydro3D Hydro3DSpec Hydro3DFacts.
Local Open Scope Z_scope.

Section Body.
Context {T : Type} {N : Num T}.
Variable m : mesh.
Variable S : hset T.
Variable g : gravp.
Variable dt : T.
Variable inb : extents.
Hypothesis Hslope : slope_ok S.
Hypothesis Hsolver : solver_ok3 S.
Hypothesis Hgw : 2 <= gw m.
Hypothesis Hnv : nbvar m = 5.
Variables ain aout : arr.
Hypothesis Hb : buffers ain aout.

Notation Gf s := (fun i j k v => s (mkloc A_G i j k v)).
(** Field seen by the scheme, physical cells and ghosts, for an initial store. *)
Variable Ufield : store T -> field3 T.

Let bin := buf_in ain aout Hb.
Let bout := buf_out ain aout Hb.
Let bne := buf_ne ain aout Hb.

Lemma phys_cell3 i j k : phys3 m i j k -> cell3 m i j k.
Proof. unfold phys3, cell3, phys2, cell2, physical. lia. Qed.

(** State before the scheme proper: ghosts filled, both arrays equal, primitive
    variables computed, gravity field untouched. *)
Definition prepared (s t : store T) : Prop :=
  (forall i j k v, cell3 m i j k -> 0 <= v < 5 -> t (mkloc ain i j k v) = Ufield s i j k v) /\
  (forall i j k v, cell3 m i j k -> 0 <= v < 5 -> t (mkloc aout i j k v) = Ufield s i j k v) /\
  (forall i j k, cell3 m i j k -> get3 t A_Q i j k = Qf3 S (Ufield s) i j k) /\
  (forall i j k v, t (mkloc A_G i j k v) = s (mkloc A_G i j k v)).

Lemma prefix_spec3 s s1 s' :
  (forall i j k v, cell3 m i j k -> 0 <= v < 5 -> s1 (mkloc ain i j k v) = Ufield s i j k v) ->
  (forall i j k v, s1 (mkloc A_G i j k v) = s (mkloc A_G i j k v)) ->
  execs inb s1 [deep_copy3 m aout ain; map (convert_item3 m S ain) (cells3 m)] s' ->
  prepared s s'.
Proof.
  intros F1 F3 H2.
  inv_execs H2. inv_execs HT. inv_execs HT0.
  destruct (deep_copy_spec3 m inb aout ain _ _ (not_eq_sym bne) ltac:(lia) HK) as (D1 & D2).
  destruct (convert_spec3 m S inb ain _ _ bin HK0) as (C1 & C2).
  assert (Hin : forall i j k v, s' (mkloc ain i j k v) = s1 (mkloc ain i j k v)).
  { intros. rewrite C2, D2; auto; simpl; destruct Hb as [[-> ->]|[-> ->]]; congruence. }
  assert (Hout : forall i j k v, s' (mkloc aout i j k v) = s0 (mkloc aout i j k v)).
  { intros. rewrite C2; auto; simpl; destruct Hb as [[-> ->]|[-> ->]]; congruence. }
  repeat apply conj.
  - intros i j k v Hc Hv. rewrite Hin. apply F1; auto.
  - intros i j k v Hc Hv. rewrite Hout, D1 by (auto; lia). apply F1; auto.
  - intros i j k Hc. rewrite C1 by auto. unfold Qf3. do 2 f_equal.
    apply get3_eq. intros v Hv.
    rewrite D2 by (simpl; apply bne). rewrite F1 by (auto; lia).
    var5 v; reflexivity.
  - intros i j k v. rewrite C2, D2, F3; simpl; auto; try congruence;
    destruct Hb as [[-> ->]|[-> ->]]; congruence.
Qed.

(** What a step must achieve. *)
Definition step_result3 (full : bool) (s s' : store T) : Prop :=
  (forall i j k v, phys3 m i j k -> 0 <= v < 5 ->
     s' (mkloc aout i j k v) = step3 S g dt full (Ufield s) (Gf s) i j k v) /\
  (forall i j k v, cell3 m i j k -> ~ phys3 m i j k -> 0 <= v < 5 ->
     s' (mkloc aout i j k v) = Ufield s i j k v) /\
  (forall i j k v, cell3 m i j k -> 0 <= v < 5 -> s' (mkloc ain i j k v) = Ufield s i j k v) /\
  (forall i j k v, s' (mkloc A_G i j k v) = s (mkloc A_G i j k v)).

(** Fluxes computed from the array Q are those of the scheme. *)
Lemma F3_field full (s t : store T) d i j k v :
  (forall i j k, cell3 m i j k -> get3 t A_Q i j k = Qf3 S (Ufield s) i j k) ->
  (forall i j k v, t (mkloc A_G i j k v) = s (mkloc A_G i j k v)) ->
  gw m <= i < nx m + gw m + ox d -> gw m <= j < ny m + gw m + oy d ->
  gw m <= k < nz m + gw m + oz d ->
  F3 S g dt full (get3 t A_Q) (Gf t) d i j k v = F3 S g dt full (Qf3 S (Ufield s)) (Gf s) d i j k v.
Proof.
  intros HQ HG Hi Hj Hk. unfold F3.
  rewrite (flux3_ext S g dt full (get3 t A_Q) (Qf3 S (Ufield s)) (Gf t) (Gf s) d i j k); auto.
  intros. apply HQ. unfold cell3, cell2. destruct d; simpl in *; lia.
Qed.

(** The advected state before the gravity source term. *)
Definition adv_result3 (full : bool) (s s4 : store T) : Prop :=
  (forall i j k v, phys3 m i j k -> 0 <= v < 5 ->
     s4 (mkloc aout i j k v) = adv3 S g dt full (Ufield s) (Gf s) i j k v) /\
  (forall i j k v, cell3 m i j k -> ~ phys3 m i j k -> 0 <= v < 5 ->
     s4 (mkloc aout i j k v) = Ufield s i j k v) /\
  (forall i j k v, cell3 m i j k -> 0 <= v < 5 -> s4 (mkloc ain i j k v) = Ufield s i j k v) /\
  (forall i j k v, s4 (mkloc A_G i j k v) = s (mkloc A_G i j k v)).

Lemma grav_source3_ext (U1 U2 G1 G2 W1 W2 : field3 T) i j k v :
  U1 i j k ID = U2 i j k ID -> (forall v, G1 i j k v = G2 i j k v) ->
  (forall v, 0 <= v < 5 -> W1 i j k v = W2 i j k v) -> 0 <= v < 5 ->
  grav_source3 dt U1 G1 W1 i j k v = grav_source3 dt U2 G2 W2 i j k v.
Proof.
  intros HU HG HW Hv. unfold grav_source3.
  rewrite HU, !HG, !(HW ID), !(HW IU), !(HW IV), !(HW IW), !(HW IE), (HW v)
    by (unfold ID, IU, IV, IW, IE; lia). reflexivity.
Qed.

Lemma suffix_spec3 full s s4 s' : adv_result3 full s s4 ->
  execs inb s4 (if g_enabled g then [map (gravity_item3 m dt ain aout) (cells3 m)] else []) s' ->
  step_result3 full s s'.
Proof.
  intros (A1 & A2 & A3 & A4) Hex. unfold step_result3, step3. destruct (g_enabled g).
  - inv_execs Hex. inv_execs HT.
    destruct (gravity_spec3 m dt inb ain aout _ _ Hb HK) as (G1 & G2 & G3).
    repeat split.
    + intros i j k v Hp Hv. rewrite G1 by (auto; lia). apply grav_source3_ext; auto.
      apply A3; [apply phys_cell3; auto|unfold ID; lia].
    + intros. rewrite G2; auto.
    + intros. rewrite G3; auto.
    + intros. rewrite G3; auto. simpl. destruct bout as [-> | ->]; congruence.
  - inv_execs Hex. repeat split; auto.
Qed.

Lemma scheme3_V0 s s3 s4 : prepared s s3 ->
  execs inb s3 (scheme3 m S g dt V0 aout) s4 -> adv_result3 true s s4.
Proof.
  intros (Hi & Ho & HQ & HG) Hex. simpl in Hex. inv_execs Hex. inv_execs HT. inv_execs HT0.
  destruct (fluxes_spec3 m S g dt inb Hslope Hsolver _ _ ltac:(lia) HK) as (F1 & F2).
  destruct (update_spec3 m inb aout _ _ bout HK0) as (U1 & U2 & U3).
  assert (Hne : forall a, a = ain \/ a = aout -> a <> A_Fx /\ a <> A_Fy /\ a <> A_Fz)
    by (destruct Hb as [[-> ->]|[-> ->]]; intros a [->| ->]; repeat split; congruence).
  destruct (Hne ain) as (N1 & N2 & N3); auto. destruct (Hne aout) as (N4 & N5 & N6); auto.
  repeat split.
  - intros i j k v Hp Hv. rewrite U1 by (auto; lia).
    destruct Hp as [[Hpi Hpj] Hpk]. unfold physical in *.
    rewrite F2 by auto. rewrite Ho by (auto; unfold cell3, cell2; lia).
    change A_Fx with (fa DX). change A_Fy with (fa DY). change A_Fz with (fa DZ).
    rewrite !F1 by lia. unfold adv3.
    rewrite !(F3_field true s s3) by (simpl; auto; lia). reflexivity.
  - intros. rewrite U2, F2; auto.
  - intros. rewrite U3, F2; auto.
  - intros. rewrite U3, F2; simpl; auto; try congruence. destruct bout as [-> | ->]; congruence.
Qed.

(** State between the directional passes of the second version. *)
Definition between_passes (s t : store T) : Prop :=
  slopes_stored m S t /\
  (forall i j k, cell3 m i j k -> get3 t A_Q i j k = Qf3 S (Ufield s) i j k) /\
  (forall i j k v, t (mkloc A_G i j k v) = s (mkloc A_G i j k v)) /\
  (forall i j k v, cell3 m i j k -> 0 <= v < 5 -> t (mkloc ain i j k v) = Ufield s i j k v) /\
  (forall i j k v, cell3 m i j k -> ~ phys3 m i j k -> 0 <= v < 5 ->
     t (mkloc aout i j k v) = Ufield s i j k v).

Lemma stored_frame t t' :
  (forall a, a = A_Q \/ a = A_Sx \/ a = A_Sy \/ a = A_Sz ->
     forall i j k v, t' (mkloc a i j k v) = t (mkloc a i j k v)) ->
  slopes_stored m S t -> slopes_stored m S t'.
Proof.
  intros Hf Ht i j k Hc.
  assert (HE : forall a, a = A_Q \/ a = A_Sx \/ a = A_Sy \/ a = A_Sz ->
     forall i j k, get3 t' a i j k = get3 t a i j k).
  { intros a Ha i' j' k'. apply get3_ext. intros. apply Hf; auto. }
  rewrite (dqf3_ext S (get3 t' A_Q) (get3 t A_Q)) by (intros; apply HE; auto).
  rewrite !HE by auto. apply Ht. auto.
Qed.

Lemma pass_spec d s t t1 t2 : between_passes s t ->
  exec inb t (map (trace_fluxes_item3 m S g dt d A_Fx) (cells3 m)) t1 ->
  exec inb t1 (map (update_dir_item3 m d aout A_Fx) (cells3 m)) t2 ->
  between_passes s t2 /\
  (forall i j k v, phys3 m i j k -> 0 <= v < 5 ->
     t2 (mkloc aout i j k v) =
     nsub (nadd (t (mkloc aout i j k v)) (F3 S g dt false (Qf3 S (Ufield s)) (Gf s) d i j k v))
          (F3 S g dt false (Qf3 S (Ufield s)) (Gf s) d (i + ox d) (j + oy d) (k + oz d) v)).
Proof.
  intros (B1 & B2 & B3 & B4 & B5) HK1 HK2.
  destruct (trace_spec3 m S g dt inb Hsolver d _ _ ltac:(lia) B1 HK1) as (T1 & T2).
  destruct (update_dir_spec3 m inb d aout _ _ bout HK2) as (U1 & U2 & U3).
  assert (Hne : aout <> A_Fx /\ ain <> A_Fx) by (destruct Hb as [[-> ->]|[-> ->]]; split; congruence).
  destruct Hne as [N1 N2].
  assert (Hfr : forall a, a = A_Q \/ a = A_Sx \/ a = A_Sy \/ a = A_Sz \/ a = A_G ->
     forall i j k v, t2 (mkloc a i j k v) = t (mkloc a i j k v)).
  { intros a Ha i j k v. rewrite U3, T2; auto; simpl;
    destruct bout as [-> | ->]; destruct Ha as [->|[->|[->|[->| ->]]]]; congruence. }
  split.
  - repeat apply conj.
    + apply (stored_frame t); auto. intros a Ha. apply Hfr. tauto.
    + intros i j k Hc. rewrite <- B2 by auto. apply get3_ext. intros. apply Hfr. auto.
    + intros. rewrite Hfr; auto 6.
    + intros. rewrite U3, T2; auto.
    + intros. rewrite U2, T2; auto.
  - intros i j k v Hp Hv. rewrite U1 by (auto; lia). rewrite T2 by auto.
    destruct Hp as [[Hpi Hpj] Hpk]. unfold physical in *.
    rewrite !T1 by (destruct d; simpl; lia).
    rewrite !(F3_field false s t) by (auto; destruct d; simpl; lia). reflexivity.
Qed.

Lemma scheme3_V1 s s3 s4 : prepared s s3 ->
  execs inb s3 (scheme3 m S g dt V1 aout) s4 -> adv_result3 false s s4.
Proof.
  intros (Hi & Ho & HQ & HG) Hex. simpl in Hex.
  inv_execs Hex. inv_execs HT. inv_execs HT0. inv_execs HT. inv_execs HT0.
  inv_execs HT. inv_execs HT0. inv_execs HT.
  destruct (slopes_spec3 m S inb Hslope _ _ ltac:(lia) HK) as (S1 & S2).
  assert (Hne : forall a, a = ain \/ a = aout \/ a = A_Q \/ a = A_G ->
     a <> A_Sx /\ a <> A_Sy /\ a <> A_Sz).
  { destruct Hb as [[-> ->]|[-> ->]]; intros a [->|[->|[->| ->]]]; repeat split; congruence. }
  assert (Hf : forall a, a = ain \/ a = aout \/ a = A_Q \/ a = A_G ->
     forall i j k v, s0 (mkloc a i j k v) = s3 (mkloc a i j k v)).
  { intros a Ha i j k v. destruct (Hne a Ha) as (? & ? & ?). apply S2; auto. }
  assert (B0 : between_passes s s0).
  { repeat apply conj; auto.
    - intros. rewrite <- HQ by auto. apply get3_ext. intros. apply Hf. auto.
    - intros. rewrite Hf; auto.
    - intros. rewrite Hf; auto.
    - intros. rewrite Hf; auto. }
  destruct (pass_spec DX _ _ _ _ B0 HK0 HK1) as (Bx & Px).
  destruct (pass_spec DY _ _ _ _ Bx HK2 HK3) as (By & Py).
  destruct (pass_spec DZ _ _ _ _ By HK4 HK5) as (Bz & Pz).
  destruct Bz as (_ & _ & B3 & B4 & B5).
  repeat split; auto.
  intros i j k v Hp Hv. rewrite Pz, Py, Px by auto. rewrite Hf by auto.
  rewrite Ho by (auto; apply phys_cell3; auto). cbn [ox oy oz].
  rewrite !Z.add_0_r. reflexivity.
Qed.

Lemma body3_V01 iv s s1 s' : iv = V0 \/ iv = V1 ->
  (forall i j k v, cell3 m i j k -> 0 <= v < 5 -> s1 (mkloc ain i j k v) = Ufield s i j k v) ->
  (forall i j k v, s1 (mkloc A_G i j k v) = s (mkloc A_G i j k v)) ->
  execs inb s1 (godunov3_body m S g dt iv ain aout) s' -> step_result3 (full_of iv) s s'.
Proof.
  intros Hiv F1 F3 Hex. unfold godunov3_body in Hex.
  apply execs_app in Hex. destruct Hex as (s3 & H1 & H2).
  apply execs_app in H2. destruct H2 as (s4 & H2 & H3).
  apply (suffix_spec3 _ s s4 s'); auto.
  destruct Hiv as [-> | ->]; [eapply scheme3_V0|eapply scheme3_V1]; eauto using prefix_spec3.
Qed.

(** ** Version 2: atomic accumulation *)

Lemma effects_rd3 a i j k (c : hs T -> prog T) s :
  effects (rd3 a i j k c) s = effects (c (get3 s a i j k)) s.
Proof. reflexivity. Qed.

Lemma effects_slopes_at3 i j k c s :
  effects (slopes_at3 S i j k c) s =
  effects (c (get3 s A_Q i j k) (fst (fst (dqf3 S (get3 s A_Q) i j k)))
     (snd (fst (dqf3 S (get3 s A_Q) i j k))) (snd (dqf3 S (get3 s A_Q) i j k))) s.
Proof.
  unfold slopes_at3, dqf3. rewrite !effects_rd3. unfold need.
  destruct (slopes3 _ _ _ _ _ _ _ _) as [[[x y] z]|] eqn:E; [reflexivity|].
  exfalso. eapply slopes3_some; eauto.
Qed.

Lemma effects_predict3 i j k q (c : hs T -> prog T) s :
  effects (predict3 g dt i j k q c) s = effects (c (predictor g dt (Gf s) true q i j k)) s.
Proof. unfold predict3, predictor. cbn [andb]. destruct (_ && _); reflexivity. Qed.

Lemma effects_riemann3 ql qr (c : hs T -> prog T) s :
  effects (need (riemann3 S ql qr) c) s = effects (c (solve3 S ql qr)) s.
Proof.
  unfold need, solve3. destruct (riemann3 S ql qr) as [d|] eqn:E; [reflexivity|].
  exfalso. eapply riemann3_some; eauto.
Qed.

Lemma effects_flux_dir3 d i j k c s :
  let Q := get3 s A_Q in
  effects (flux_dir3 S g dt d i j k (Q i j k) (fst (fst (dqf3 S Q i j k)))
    (snd (fst (dqf3 S Q i j k))) (snd (dqf3 S Q i j k)) c) s =
  effects (c (hscale (flux3 S g dt true Q (Gf s) d i j k) (dtd S dt d))) s.
Proof.
  cbv zeta. unfold flux_dir3.
  rewrite effects_slopes_at3, !effects_predict3, effects_riemann3. reflexivity.
Qed.

(** Updates issued for one face. *)
Definition face_effects (s : store T) (d : dir) (i j k : Z) : list (loc * (T -> T)) :=
  let f := hscale (flux3 S g dt true (get3 s A_Q) (Gf s) d i j k) (dtd S dt d) in
  map (fun v => (mkloc aout i j k v, fun x => nadd x (hget f v)))
      (if add_ok m i j k then vars3 else []) ++
  map (fun v => (mkloc aout (i - ox d) (j - oy d) (k - oz d) v, fun x => nsub x (hget f v)))
      (if sub_ok m d i j k then vars3 else []).

Lemma effects_all3 s i j k : inner3_le m i j k = true ->
  effects (all_fluxes_item3 m S g dt aout (i, j, k)) s =
  face_effects s DX i j k ++ face_effects s DY i j k ++ face_effects s DZ i j k.
Proof.
  intros HG. unfold all_fluxes_item3, apply_flux, face_effects. rewrite HG.
  rewrite effects_slopes_at3.
  rewrite effects_flux_dir3, !effects_atomics, effects_flux_dir3, !effects_atomics,
    effects_flux_dir3, !effects_atomics.
  cbn [effects]. rewrite app_nil_r, <- !app_assoc. reflexivity.
Qed.

Lemma at_loc_vars3 a i j k v i' j' k' (F : Z -> T -> T) b : 0 <= v < 5 ->
  at_loc (mkloc a i j k v) (map (fun v => (mkloc a i' j' k' v, F v)) (if b : bool then vars3 else [])) =
  if b && ((i' =? i) && (j' =? j) && (k' =? k)) then [F v] else [].
Proof.
  intros Hv. destruct b; [|reflexivity]. cbn [andb].
  assert (Hl : forall v', (if loc_eq_dec (mkloc a i' j' k' v') (mkloc a i j k v) then true else false) =
     ((i' =? i) && (j' =? j) && (k' =? k)) && (v' =? v)).
  { intros v'. destruct (loc_eq_dec _ _) as [E|E].
    - inversion E. subst. lia.
    - symmetry. apply not_true_is_false. intros H. apply E. f_equal; lia. }
  unfold at_loc, vars3. cbn [map filter fst snd]. rewrite !Hl. unfold ID, IP, IU, IV, IW.
  destruct ((i' =? i) && (j' =? j) && (k' =? k)); cbn [andb]; var5 v; reflexivity.
Qed.

Lemma foot_all3 c :
  foot Rq nowhere (fun l => la l = aout) (all_fluxes_item3 m S g dt aout c).
Proof.
  destruct c as [[i j] k]. unfold all_fluxes_item3. destruct (inner3_le m i j k); [|exact I].
  foots3; simpl; auto; try (left; reflexivity); try (right; reflexivity);
  intros; destruct (_ && _); simpl; reflexivity.
Qed.

(** Updates of a physical cell issued by the face [d] of the cell c. *)
Lemma at_face s d i j k v c1 c2 c3 : phys3 m i j k -> 0 <= v < 5 -> inner3_le m c1 c2 c3 = true ->
  at_loc (mkloc aout i j k v) (face_effects s d c1 c2 c3) =
  if (c1 =? i) && (c2 =? j) && (c3 =? k) then
    [ (fun x => nadd x (F3 S g dt true (get3 s A_Q) (Gf s) d i j k v)) ]
  else if (c1 =? i + ox d) && (c2 =? j + oy d) && (c3 =? k + oz d) then
    [ (fun x => nsub x (F3 S g dt true (get3 s A_Q) (Gf s) d (i + ox d) (j + oy d) (k + oz d) v)) ]
  else [].
Proof.
  intros [[Hi Hj] Hk] Hv HG. unfold physical in *.
  unfold inner3_le, isize, jsize, ksize in HG.
  unfold face_effects. rewrite at_loc_app, !at_loc_vars3 by auto.
  destruct ((c1 =? i) && (c2 =? j) && (c3 =? k)) eqn:E1.
  - replace c1 with i in * by lia. replace c2 with j in * by lia. replace c3 with k in * by lia.
    replace (add_ok m i j k) with true by (unfold add_ok, isize, jsize, ksize; lia).
    replace ((i - ox d =? i) && (j - oy d =? j) && (k - oz d =? k)) with false
      by (destruct d; simpl; lia).
    rewrite andb_false_r. cbn [andb app]. unfold F3. rewrite hget_hscale by lia. reflexivity.
  - rewrite andb_false_r. cbn [app].
    destruct ((c1 =? i + ox d) && (c2 =? j + oy d) && (c3 =? k + oz d)) eqn:E2.
    + replace c1 with (i + ox d) in * by lia. replace c2 with (j + oy d) in * by lia.
      replace c3 with (k + oz d) in * by lia.
      replace (sub_ok m d (i + ox d) (j + oy d) (k + oz d)) with true
        by (unfold sub_ok, isize, jsize, ksize; destruct d; simpl; lia).
      replace (i + ox d - ox d) with i by lia. replace (j + oy d - oy d) with j by lia.
      replace (k + oz d - oz d) with k by lia. rewrite !Z.eqb_refl. cbn [andb].
      unfold F3. rewrite hget_hscale by lia. reflexivity.
    + replace ((c1 - ox d =? i) && (c2 - oy d =? j) && (c3 - oz d =? k)) with false by lia.
      rewrite andb_false_r. reflexivity.
Qed.

(** Ghost cells receive no update. *)
Lemma at_face_ghost s d i j k v c1 c2 c3 : ~ phys3 m i j k -> 0 <= v < 5 ->
  inner3_le m c1 c2 c3 = true ->
  at_loc (mkloc aout i j k v) (face_effects s d c1 c2 c3) = [].
Proof.
  intros Hp Hv HG. unfold face_effects. rewrite at_loc_app, !at_loc_vars3 by auto.
  unfold inner3_le, isize, jsize, ksize in HG. unfold phys3, phys2, physical in Hp.
  replace (add_ok m c1 c2 c3 && ((c1 =? i) && (c2 =? j) && (c3 =? k))) with false
    by (symmetry; unfold add_ok, isize, jsize, ksize; lia).
  replace (sub_ok m d c1 c2 c3 && ((c1 - ox d =? i) && (c2 - oy d =? j) && (c3 - oz d =? k)))
    with false by (symmetry; unfold sub_ok, isize, jsize, ksize; destruct d; simpl; lia).
  reflexivity.
Qed.

Lemma at_all3_ghost s i j k v c : ~ phys3 m i j k -> 0 <= v < 5 ->
  at_loc (mkloc aout i j k v) (effects (all_fluxes_item3 m S g dt aout c) s) = [].
Proof.
  intros Hp Hv. destruct c as [[c1 c2] c3]. destruct (inner3_le m c1 c2 c3) eqn:HG.
  - rewrite effects_all3 by auto. rewrite !at_loc_app, !at_face_ghost by auto. reflexivity.
  - unfold all_fluxes_item3. rewrite HG. reflexivity.
Qed.

(** What version 2 achieves before the gravity source. *)
Definition adv_result3_any (s s4 : store T) : Prop :=
  (forall i j k v, phys3 m i j k -> 0 <= v < 5 ->
     adv3_any_order S g dt true (Ufield s) (Gf s) i j k v (s4 (mkloc aout i j k v))) /\
  (forall i j k v, cell3 m i j k -> ~ phys3 m i j k -> 0 <= v < 5 ->
     s4 (mkloc aout i j k v) = Ufield s i j k v) /\
  (forall i j k v, cell3 m i j k -> 0 <= v < 5 -> s4 (mkloc ain i j k v) = Ufield s i j k v) /\
  (forall i j k v, s4 (mkloc A_G i j k v) = s (mkloc A_G i j k v)).

Lemma scheme3_V2 s s3 s4 : prepared s s3 ->
  execs inb s3 (scheme3 m S g dt V2 aout) s4 -> adv_result3_any s s4.
Proof.
  intros (Hi & Ho & HQ & HG) Hex. simpl in Hex. inv_execs Hex. inv_execs HT.
  assert (HRA : forall l, Rq l -> la l <> aout).
  { unfold Rq. intros l Hl E. destruct bout as [H | H]; rewrite H in E; destruct Hl; congruence. }
  assert (Hfr : forall l, la l <> aout -> s4 l = s3 l).
  { refine (proj1 (atomic_exec Rq (fun l => la l = aout) HRA inb s3 _ s4 _ HK)).
    apply Forall_forall. intros p Hp. apply in_map_iff in Hp. destruct Hp as (c & <- & _). apply foot_all3. }
  assert (Hat := fun l => atomic_exec_at Rq (fun l => la l = aout) inb s3
     (all_fluxes_item3 m S g dt aout) (cells3 m) s4 l HRA (fun c _ => foot_all3 c) HK).
  split; [|split; [|split]].
  - intros i j k v Hp Hv. destruct (Hat (mkloc aout i j k v)) as (ops & HP & E).
    exists ops. split.
    + etransitivity; [exact HP|].
      pose proof Hp as [[Hpi Hpj] Hpk]. unfold physical in Hpi, Hpj, Hpk.
      assert (Hle : forall c1 c2 c3, i <= c1 <= i + 1 -> j <= c2 <= j + 1 -> k <= c3 <= k + 1 ->
        inner3_le m c1 c2 c3 = true) by (intros; unfold inner3_le, isize, jsize, ksize; lia).
      etransitivity.
      { apply concat_pick with (picks := [(i, j, k); (i + 1, j, k); (i, j + 1, k); (i, j, k + 1)]).
        - apply nodup_range3.
        - assert (D : forall a b c d e f : Z, a <> d \/ b <> e \/ c <> f -> (a, b, c) <> (d, e, f))
            by (intros a b c d e f Hd E1; inversion E1; lia).
          constructor; [simpl; intros [E1|[E1|[E1|[]]]]; revert E1; apply D; lia|].
          constructor; [simpl; intros [E1|[E1|[]]]; revert E1; apply D; lia|].
          constructor; [simpl; intros [E1|[]]; revert E1; apply D; lia|].
          constructor; [simpl; tauto|constructor].
        - intros [[c1 c2] c3] Hc. apply in_range3. unfold isize, jsize, ksize.
          simpl in Hc. destruct Hc as [E1|[E1|[E1|[E1|[]]]]]; inversion E1; subst; lia.
        - intros [[c1 c2] c3] Hc Hn. destruct (inner3_le m c1 c2 c3) eqn:HL.
          + assert (HD : forall d,
              (c1 =? i) && (c2 =? j) && (c3 =? k) = false /\
              (c1 =? i + ox d) && (c2 =? j + oy d) && (c3 =? k + oz d) = false).
            { intros d. simpl in Hn. split; apply not_true_is_false; intros E1; apply Hn.
              - left. repeat f_equal; lia.
              - destruct d; simpl in E1; [right; left|right; right; left|right; right; right; left];
                repeat f_equal; lia. }
            rewrite effects_all3 by auto. rewrite !at_loc_app, !at_face by auto.
            destruct (HD DX) as [A1 A2], (HD DY) as [A3 A4], (HD DZ) as [A5 A6].
            rewrite A1, A2, A4, A6. reflexivity.
          + unfold all_fluxes_item3. rewrite HL. reflexivity. }
      cbn [map concat].
      rewrite !effects_all3 by (apply Hle; lia).
      rewrite !at_loc_app, !at_face by (auto; apply Hle; lia).
      cbn [ox oy oz]. rewrite !Z.add_0_r, !Z.eqb_refl.
      replace (i + 1 =? i) with false by lia. replace (j + 1 =? j) with false by lia.
      replace (k + 1 =? k) with false by lia. replace (i =? i + 1) with false by lia.
      replace (j =? j + 1) with false by lia. replace (k =? k + 1) with false by lia.
      cbn [andb app].
      rewrite !(F3_field true s s3) by (simpl; auto; lia).
      match goal with |- Permutation [?a; ?b; ?c; ?d; ?e; ?f] _ =>
        set (A := a); set (B := b); set (C := c); set (D := d); set (E' := e); set (F := f) end.
      constructor. change [B; C; D; E'; F] with ([B; C] ++ D :: [E'; F]).
      etransitivity; [symmetry; apply Permutation_middle|]. constructor. cbn [app]. constructor.
      apply perm_swap.
    + rewrite E. f_equal. apply Ho; auto. apply phys_cell3; auto.
  - intros i j k v Hc Hp Hv. destruct (Hat (mkloc aout i j k v)) as (ops & HP & E).
    rewrite concat_nil in HP by (intros; apply at_all3_ghost; auto).
    apply Permutation_sym, Permutation_nil in HP. subst ops. rewrite E. simpl. apply Ho; auto.
  - intros. rewrite Hfr by (simpl; apply bne). auto.
  - intros. rewrite Hfr by (simpl; destruct bout as [-> | ->]; congruence). auto.
Qed.

(** Result of a step of version 2: the flux contributions are applied in some
    order, then the gravity source. *)
Definition step_result3_any (s s' : store T) : Prop :=
  exists W : field3 T,
  (forall i j k v, phys3 m i j k -> 0 <= v < 5 ->
     adv3_any_order S g dt true (Ufield s) (Gf s) i j k v (W i j k v)) /\
  (forall i j k v, phys3 m i j k -> 0 <= v < 5 ->
     s' (mkloc aout i j k v) =
     if g_enabled g then grav_source3 dt (Ufield s) (Gf s) W i j k v else W i j k v) /\
  (forall i j k v, cell3 m i j k -> ~ phys3 m i j k -> 0 <= v < 5 ->
     s' (mkloc aout i j k v) = Ufield s i j k v) /\
  (forall i j k v, cell3 m i j k -> 0 <= v < 5 -> s' (mkloc ain i j k v) = Ufield s i j k v) /\
  (forall i j k v, s' (mkloc A_G i j k v) = s (mkloc A_G i j k v)).

Lemma suffix3_any s s4 s' : adv_result3_any s s4 ->
  execs inb s4 (if g_enabled g then [map (gravity_item3 m dt ain aout) (cells3 m)] else []) s' ->
  step_result3_any s s'.
Proof.
  intros (A1 & A2 & A3 & A4) Hex. exists (fun i j k v => s4 (mkloc aout i j k v)).
  split; [exact A1|]. destruct (g_enabled g).
  - inv_execs Hex. inv_execs HT.
    destruct (gravity_spec3 m dt inb ain aout _ _ Hb HK) as (G1 & G2 & G3).
    repeat split.
    + intros i j k v Hp Hv. rewrite G1 by (auto; lia). apply grav_source3_ext; auto.
      apply A3; [apply phys_cell3; auto|unfold ID; lia].
    + intros. rewrite G2; auto.
    + intros. rewrite G3; auto.
    + intros. rewrite G3; auto. simpl. destruct bout as [-> | ->]; congruence.
  - inv_execs Hex. repeat split; auto.
Qed.

Lemma body3_V2 s s1 s' :
  (forall i j k v, cell3 m i j k -> 0 <= v < 5 -> s1 (mkloc ain i j k v) = Ufield s i j k v) ->
  (forall i j k v, s1 (mkloc A_G i j k v) = s (mkloc A_G i j k v)) ->
  execs inb s1 (godunov3_body m S g dt V2 ain aout) s' -> step_result3_any s s'.
Proof.
  intros F1 F3 Hex. unfold godunov3_body in Hex.
  apply execs_app in Hex. destruct Hex as (s3 & H1 & H2).
  apply execs_app in H2. destruct H2 as (s4 & H2 & H3).
  apply (suffix3_any s s4 s'); auto. eapply scheme3_V2; eauto using prefix_spec3.
Qed.

End Body.

(** ** A step without MPI: the field seen by the scheme is prescribed by the
    boundary types *)
Section Step.
Context {T : Type} {N : Num T} {O : NumOne T}.
Variable m : mesh.
Variable S : hset T.
Variable g : gravp.
Variable dt : T.
Variable inb : extents.
Hypothesis Hslope : slope_ok S.
Hypothesis Hsolver : solver_ok3 S.
Hypothesis Hwide : wide3 m.
Hypothesis Hgw : 2 <= gw m.
Hypothesis Hnv : nbvar m = 5.
Variables ain aout : arr.
Hypothesis Hb : buffers ain aout.

Lemma fill_part3 s s1 : execs inb s (make_boundaries3d m ain) s1 ->
  (forall i j k v, cell3 m i j k -> 0 <= v < 5 -> s1 (mkloc ain i j k v) = filled3 m ain s i j k v) /\
  (forall i j k v, s1 (mkloc A_G i j k v) = s (mkloc A_G i j k v)).
Proof.
  intros H1. destruct (fill3d_spec m ain inb s s1 Hwide H1) as (F1 & F2 & F3). split.
  - intros i j k v Hc Hv. apply F1; auto. lia.
  - intros i j k v. apply F3. simpl. destruct Hb as [[-> ->]|[-> ->]]; congruence.
Qed.

Theorem step3_V01 iv s s' : iv = V0 \/ iv = V1 ->
  execs inb s (godunov3 m S g dt iv ain aout) s' ->
  step_result3 m S g dt ain aout (filled3 m ain) (full_of iv) s s'.
Proof.
  intros Hiv Hex. apply execs_app in Hex. destruct Hex as (s1 & H1 & H2).
  destruct (fill_part3 s s1 H1) as [F1 F3]. eapply body3_V01; eauto.
Qed.

Theorem step3_V2 s s' : execs inb s (godunov3 m S g dt V2 ain aout) s' ->
  step_result3_any m S g dt ain aout (filled3 m ain) s s'.
Proof.
  intros Hex. apply execs_app in Hex. destruct Hex as (s1 & H1 & H2).
  destruct (fill_part3 s s1 H1) as [F1 F3]. eapply body3_V2; eauto.
Qed.

End Step.

(** ** Exact arithmetic: the order of accumulation does not matter *)
Lemma any_order3_R S g dt full U G i j k v x :
  adv3_any_order S g dt full U G i j k v x -> x = adv3 (T := R) S g dt full U G i j k v.
Proof.
  intros (ops & HP & ->). apply Permutation_sym in HP.
  rewrite <- (fold_perm_R _ _ HP); [reflexivity|].
  repeat constructor; intro; unfold nadd, nsub; simpl; lra.
Qed.
