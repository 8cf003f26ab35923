(** * One full 2D time step, all three implementation versions *)
From Coq Require Import ZArith List Bool Lia ZifyBool Permutation Reals Lra.
Import ListNotations.
From Verif Require Import Num Exec ExecFacts Grid GridFacts Boundaries BoundariesSpec
  BoundariesFacts BoundariesFill BoundariesNarrow HydroNum Kernels KernelFacts Atomics
  Hydro2D Hydro2DSpec Hydro2DFacts.
Local Open Scope Z_scope.

Ltac inv_execs H :=
  match type of H with
  | execs _ _ [] _ => inversion H; subst; clear H
  | execs _ _ (_ :: _) _ =>
      let s1 := fresh "s" in let HK := fresh "HK" in let HT := fresh "HT" in
      inversion H as [|? ? s1 ? ? HK HT]; subst; clear H
  end.

Section Body.
Context {T : Type} {N : Num T}.
Variable m : mesh.
Variable S : hset T.
Variable g : gravp.
Variable dt : T.
Variable inb : extents.
Hypothesis Hslope : slope_ok S.
Hypothesis Hsolver : solver_ok2 S.
Hypothesis Hgw : 2 <= gw m.
Hypothesis Hnv : nbvar m = 4.
Variables ain aout : arr.
Hypothesis Hb : buffers ain aout.

Notation Gf s := (fun i j v => s (L2 A_G i j v)).

Lemma buf_in : ain = A_U \/ ain = A_U2.
Proof. destruct Hb as [[-> ->]|[-> ->]]; auto. Qed.
Lemma buf_out : aout = A_U \/ aout = A_U2.
Proof. destruct Hb as [[-> ->]|[-> ->]]; auto. Qed.
Lemma buf_ne : ain <> aout.
Proof. destruct Hb as [[-> ->]|[-> ->]]; congruence. Qed.

(** Field seen by the scheme, physical cells and ghosts, for an initial store. *)
Variable Ufield : store T -> field2 T.

Lemma phys_cell i j : phys2 m i j -> cell2 m i j.
Proof. unfold phys2, cell2, physical. lia. Qed.

Lemma prefix_spec s s1 s' :
  (forall i j v, cell2 m i j -> 0 <= v < 4 -> s1 (L2 ain i j v) = Ufield s i j v) ->
  (forall i j v, s1 (L2 A_G i j v) = s (L2 A_G i j v)) ->
  execs inb s1 [deep_copy2 m aout ain; map (convert_item2 m S ain) (cells2 m)] s' ->
  (forall i j v, cell2 m i j -> 0 <= v < 4 -> s' (L2 ain i j v) = Ufield s i j v) /\
  (forall i j v, cell2 m i j -> 0 <= v < 4 -> s' (L2 aout i j v) = Ufield s i j v) /\
  (forall i j, cell2 m i j -> get2 s' A_Q i j = Qf S (Ufield s) i j) /\
  (forall i j v, s' (L2 A_G i j v) = s (L2 A_G i j v)).
Proof.
  intros F1 F3 H2.
  inv_execs H2. inv_execs HT. inv_execs HT0.
  destruct (deep_copy_spec m inb aout ain _ _ (not_eq_sym buf_ne) ltac:(lia) HK) as (D1 & D2).
  destruct (convert_spec m S inb ain _ _ buf_in HK0) as (C1 & C2).
  assert (Hin : forall i j v, s' (L2 ain i j v) = s1 (L2 ain i j v)).
  { intros. rewrite C2, D2; auto; simpl; destruct Hb as [[-> ->]|[-> ->]]; congruence. }
  assert (Hout : forall i j v, s' (L2 aout i j v) = s0 (L2 aout i j v)).
  { intros. rewrite C2; auto; simpl; destruct Hb as [[-> ->]|[-> ->]]; congruence. }
  repeat split.
  - intros i j v Hc Hv. rewrite Hin. apply F1; auto.
  - intros i j v Hc Hv. rewrite Hout, D1 by (auto; lia). apply F1; auto.
  - intros i j Hc. rewrite C1 by auto. unfold Qf. do 2 f_equal.
    apply get2_eq; [reflexivity|]. intros v Hv.
    rewrite D2 by (simpl; apply buf_ne). rewrite F1 by auto.
    assert (v = 0 \/ v = 1 \/ v = 2 \/ v = 3) as [->|[->|[->| ->]]] by lia; reflexivity.
  - intros i j v. rewrite C2, D2, F3; simpl; auto; try congruence;
    destruct Hb as [[-> ->]|[-> ->]]; congruence.
Qed.

(** What a step must achieve. *)
Definition step_result (s s' : store T) : Prop :=
  (forall i j v, phys2 m i j -> 0 <= v < 4 ->
     s' (L2 aout i j v) = step2 S g dt (Ufield s) (Gf s) i j v) /\
  (forall i j v, cell2 m i j -> ~ phys2 m i j -> 0 <= v < 4 ->
     s' (L2 aout i j v) = Ufield s i j v) /\
  (forall i j v, cell2 m i j -> 0 <= v < 4 -> s' (L2 ain i j v) = Ufield s i j v) /\
  (forall i j v, s' (L2 A_G i j v) = s (L2 A_G i j v)).

(** Fluxes computed from the array Q are those of the scheme. *)
Lemma FX_field (s s3 : store T) i j v :
  (forall i j, cell2 m i j -> get2 s3 A_Q i j = Qf S (Ufield s) i j) ->
  (forall i j v, s3 (L2 A_G i j v) = s (L2 A_G i j v)) ->
  gw m <= i <= nx m + gw m -> gw m <= j < ny m + gw m ->
  FX S g dt (get2 s3 A_Q) (Gf s3) i j v = FX S g dt (Qf S (Ufield s)) (Gf s) i j v.
Proof.
  intros HQ HG Hi Hj. apply FX_ext.
  - intros. apply HQ. unfold cell2. lia.
  - intros. apply HG.
Qed.

Lemma FY_field (s s3 : store T) i j v :
  (forall i j, cell2 m i j -> get2 s3 A_Q i j = Qf S (Ufield s) i j) ->
  (forall i j v, s3 (L2 A_G i j v) = s (L2 A_G i j v)) ->
  gw m <= i < nx m + gw m -> gw m <= j <= ny m + gw m ->
  FY S g dt (get2 s3 A_Q) (Gf s3) i j v = FY S g dt (Qf S (Ufield s)) (Gf s) i j v.
Proof.
  intros HQ HG Hi Hj. apply FY_ext.
  - intros. apply HQ. unfold cell2. lia.
  - intros. apply HG.
Qed.

(** The advected state before the gravity source term. *)
Definition adv_result (s s4 : store T) : Prop :=
  (forall i j v, phys2 m i j -> 0 <= v < 4 ->
     s4 (L2 aout i j v) = adv2 S g dt (Ufield s) (Gf s) i j v) /\
  (forall i j v, cell2 m i j -> ~ phys2 m i j -> 0 <= v < 4 ->
     s4 (L2 aout i j v) = Ufield s i j v) /\
  (forall i j v, cell2 m i j -> 0 <= v < 4 -> s4 (L2 ain i j v) = Ufield s i j v) /\
  (forall i j v, s4 (L2 A_G i j v) = s (L2 A_G i j v)).

Lemma grav_source_ext (U1 U2 G1 G2 W1 W2 : field2 T) i j v :
  U1 i j ID = U2 i j ID -> (forall v, G1 i j v = G2 i j v) ->
  (forall v, 0 <= v < 4 -> W1 i j v = W2 i j v) -> 0 <= v < 4 ->
  grav_source S dt U1 G1 W1 i j v = grav_source S dt U2 G2 W2 i j v.
Proof.
  intros HU HG HW Hv. unfold grav_source.
  rewrite HU, !HG, !(HW ID), !(HW IU), !(HW IV), !(HW IE), (HW v)
    by (unfold ID, IU, IV, IE; lia). reflexivity.
Qed.

Lemma suffix_spec s s4 s' : adv_result s s4 ->
  execs inb s4 (if g_enabled g then [map (gravity_item2 m S dt ain aout) (cells2 m)] else []) s' ->
  step_result s s'.
Proof.
  intros (A1 & A2 & A3 & A4) Hex. unfold step_result, step2. destruct (g_enabled g).
  - inv_execs Hex. inv_execs HT.
    destruct (gravity_spec m S dt inb ain aout _ _ Hb HK) as (G1 & G2 & G3).
    repeat split.
    + intros i j v Hp Hv. rewrite G1 by (auto; lia). apply grav_source_ext; auto.
      apply A3; [apply phys_cell; auto|unfold ID; lia].
    + intros. rewrite G2; auto.
    + intros. rewrite G3; auto. simpl. apply buf_ne.
    + intros. rewrite G3; auto. simpl. destruct buf_out as [-> | ->]; congruence.
  - inv_execs Hex. repeat split; auto.
Qed.

Lemma scheme_V0 s s3 s4 :
  (forall i j v, cell2 m i j -> 0 <= v < 4 -> s3 (L2 ain i j v) = Ufield s i j v) ->
  (forall i j v, cell2 m i j -> 0 <= v < 4 -> s3 (L2 aout i j v) = Ufield s i j v) ->
  (forall i j, cell2 m i j -> get2 s3 A_Q i j = Qf S (Ufield s) i j) ->
  (forall i j v, s3 (L2 A_G i j v) = s (L2 A_G i j v)) ->
  execs inb s3 (scheme2 m S g dt V0 aout) s4 -> adv_result s s4.
Proof.
  intros Hi Ho HQ HG Hex. simpl in Hex. inv_execs Hex. inv_execs HT. inv_execs HT0.
  destruct (fluxes_spec m S g dt inb Hslope Hsolver _ _ ltac:(lia) HK) as (F1 & F2).
  destruct (update_spec m inb aout _ _ buf_out HK0) as (U1 & U2 & U3).
  assert (Hne : aout <> A_Fx /\ aout <> A_Fy /\ ain <> A_Fx /\ ain <> A_Fy)
    by (destruct Hb as [[-> ->]|[-> ->]]; repeat split; congruence).
  destruct Hne as (N1 & N2 & N3 & N4).
  repeat split.
  - intros i j v Hp Hv. rewrite U1 by (auto; lia).
    destruct Hp as [Hpi Hpj]. unfold physical in Hpi, Hpj.
    rewrite F2 by auto. rewrite Ho by (auto; unfold cell2; lia).
    destruct (F1 i j v) as [E1 E2]; try lia. destruct (F1 (i + 1) j v) as [E3 _]; try lia.
    destruct (F1 i (j + 1) v) as [_ E4]; try lia.
    rewrite E1, E2, E3, E4. unfold adv2.
    rewrite !(FX_field s s3), !(FY_field s s3) by (auto; lia). reflexivity.
  - intros. rewrite U2, F2; auto.
  - intros. rewrite U3, F2; auto. simpl. apply buf_ne.
  - intros. rewrite U3, F2; simpl; auto; try congruence. destruct buf_out as [-> | ->]; congruence.
Qed.

Lemma scheme_V1 s s3 s4 :
  (forall i j v, cell2 m i j -> 0 <= v < 4 -> s3 (L2 ain i j v) = Ufield s i j v) ->
  (forall i j v, cell2 m i j -> 0 <= v < 4 -> s3 (L2 aout i j v) = Ufield s i j v) ->
  (forall i j, cell2 m i j -> get2 s3 A_Q i j = Qf S (Ufield s) i j) ->
  (forall i j v, s3 (L2 A_G i j v) = s (L2 A_G i j v)) ->
  execs inb s3 (scheme2 m S g dt V1 aout) s4 -> adv_result s s4.
Proof.
  intros Hi Ho HQ HG Hex. simpl in Hex.
  inv_execs Hex. inv_execs HT. inv_execs HT0. inv_execs HT. inv_execs HT0. inv_execs HT.
  rename s0 into sa, s1 into sb, s2 into sc, s5 into sd.
  assert (Hne : forall a, a = ain \/ a = aout \/ a = A_G \/ a = A_Q ->
     a <> A_Fx /\ a <> A_Sx /\ a <> A_Sy).
  { intros a Ha. destruct Hb as [[-> ->]|[-> ->]];
    destruct Ha as [->|[->|[->| ->]]]; repeat split; congruence. }
  destruct (slopes_spec m S inb _ _ ltac:(lia) HK) as (S1 & S2).
  assert (Hsl : forall i j, gw m - 1 <= i <= nx m + gw m -> gw m - 1 <= j <= ny m + gw m ->
     get2 sa A_Sx i j = fst (dqf S (get2 sa A_Q) i j) /\
     get2 sa A_Sy i j = snd (dqf S (get2 sa A_Q) i j)).
  { intros i j Hi' Hj'.
    assert (EQ : dqf S (get2 sa A_Q) i j = dqf S (get2 s3 A_Q) i j).
    { apply dqf_ext. intros. apply get2_ext. intros. apply S2; simpl; congruence. }
    rewrite EQ. destruct (dqf_hw S (get2 s3 A_Q) i j).
    split; apply get2_eq; auto; intros v Hv; apply (S1 i j Hi' Hj' v Hv). }
  destruct (trace_spec m S g dt inb Hsolver true _ _ ltac:(lia) Hsl HK0) as (T1 & T2).
  destruct (update_dir_spec m inb true aout _ _ buf_out HK1) as (U1 & U2 & U3).
  assert (HQc : forall a, a = A_Q \/ a = A_Sx \/ a = A_Sy ->
      forall i j, get2 sc a i j = get2 sa a i j).
  { intros a Ha i j. apply get2_ext. intros v Hv.
    rewrite U3, T2; auto; simpl; destruct buf_out as [-> | ->]; destruct Ha as [->|[->| ->]]; congruence. }
  assert (Hsl2 : forall i j, gw m - 1 <= i <= nx m + gw m -> gw m - 1 <= j <= ny m + gw m ->
     get2 sc A_Sx i j = fst (dqf S (get2 sc A_Q) i j) /\
     get2 sc A_Sy i j = snd (dqf S (get2 sc A_Q) i j)).
  { intros i j Hi' Hj'.
    rewrite !HQc by auto. rewrite (dqf_ext S (get2 sc A_Q) (get2 sa A_Q)); auto. }
  destruct (trace_spec m S g dt inb Hsolver false _ _ ltac:(lia) Hsl2 HK2) as (T3 & T4).
  destruct (update_dir_spec m inb false aout _ _ buf_out HK3) as (U4 & U5 & U6).
  assert (HQa : forall i j, cell2 m i j -> get2 sa A_Q i j = Qf S (Ufield s) i j).
  { intros. rewrite <- HQ by auto. apply get2_ext. intros. apply S2; simpl; congruence. }
  assert (HGa : forall i j v, sa (L2 A_G i j v) = s (L2 A_G i j v)).
  { intros. rewrite S2; simpl; auto; congruence. }
  assert (HGc : forall i j v, sc (L2 A_G i j v) = s (L2 A_G i j v)).
  { intros. rewrite U3, T2; simpl; auto; try congruence. destruct buf_out as [-> | ->]; congruence. }
  destruct (Hne aout) as (N1 & N2 & N3); auto.
  destruct (Hne ain) as (N4 & N5 & N6); auto.
  repeat split.
  - intros i j v Hp Hv. rewrite U4 by (auto; lia).
    assert (Hc : cell2 m i j) by (apply phys_cell; auto).
    rewrite T4 by auto. rewrite U1 by (auto; lia). rewrite T2 by auto. rewrite S2 by auto.
    rewrite Ho by auto. destruct Hp as [Hpi Hpj]. unfold physical in Hpi, Hpj.
    rewrite !T1, !T3 by lia. unfold adv2.
    rewrite !(FX_field s sa), !(FY_field s sc) by (auto; try lia; intros; rewrite HQc; auto).
    reflexivity.
  - intros i j v Hc Hnp Hv. rewrite U5, T4, U2, T2, S2; auto.
  - intros i j v Hc Hv. rewrite U6, T4, U3, T2, S2; auto; simpl; apply buf_ne.
  - intros i j v. rewrite U6, T4, HGc; auto; simpl; try congruence.
    destruct buf_out as [-> | ->]; congruence.
Qed.

Lemma body_V01 iv s s1 s' : iv = V0 \/ iv = V1 ->
  (forall i j v, cell2 m i j -> 0 <= v < 4 -> s1 (L2 ain i j v) = Ufield s i j v) ->
  (forall i j v, s1 (L2 A_G i j v) = s (L2 A_G i j v)) ->
  execs inb s1 (godunov2_body m S g dt iv ain aout) s' -> step_result s s'.
Proof.
  intros Hiv F1 F3 Hex. unfold godunov2_body in Hex.
  apply execs_app in Hex. destruct Hex as (s3 & H1 & H2).
  apply execs_app in H2. destruct H2 as (s4 & H2 & H3).
  destruct (prefix_spec s s1 s3 F1 F3 H1) as (P1 & P2 & P3 & P4).
  apply (suffix_spec s s4 s'); auto.
  destruct Hiv as [-> | ->]; [eapply scheme_V0|eapply scheme_V1]; eauto.
Qed.

(** ** Version 2: atomic accumulation *)

Lemma effects_rd2 a i j (k : hs T -> prog T) s :
  effects (rd2 a i j k) s = effects (k (get2 s a i j)) s.
Proof. reflexivity. Qed.

Lemma effects_slopes_at2 i j (k : hs T -> hs T -> hs T -> prog T) s :
  effects (slopes_at2 S i j k) s =
  effects (k (get2 s A_Q i j) (fst (dqf S (get2 s A_Q) i j)) (snd (dqf S (get2 s A_Q) i j))) s.
Proof.
  unfold slopes_at2, dqf. rewrite !effects_rd2. unfold need.
  destruct (slopes2 _ _ _ _ _ _) as [d|] eqn:E; [reflexivity|].
  exfalso. eapply slopes2_some; eauto.
Qed.

Lemma effects_predict2 i j q (k : hs T -> prog T) s :
  effects (predict2 g dt i j q k) s =
  effects (k (if g_enabled g && g_hancock g
              then kick2 dt q (s (L2 A_G i j IX)) (s (L2 A_G i j IY)) else q)) s.
Proof. unfold predict2. destruct (_ && _); reflexivity. Qed.

Lemma effects_riemann2 ql qr (k : hs T -> prog T) s :
  effects (need (riemann2 S ql qr) k) s = effects (k (solve S ql qr)) s.
Proof.
  unfold need, solve. destruct (riemann2 S ql qr) as [d|] eqn:E; [reflexivity|].
  exfalso. eapply riemann2_some; eauto.
Qed.

Lemma effects_atomics op vars dst (val : hs T) k s :
  effects (atomics op vars dst val k) s =
  map (fun v => (dst v, fun x => op x (hget val v))) vars ++ effects k s.
Proof. induction vars; simpl; auto. f_equal. auto. Qed.

Lemma at_loc_vars2 a i j v i' j' (F : Z -> T -> T) b : 0 <= v < 4 ->
  at_loc (L2 a i j v) (map (fun v => (L2 a i' j' v, F v)) (if b : bool then vars2 else [])) =
  if b && ((i' =? i) && (j' =? j)) then [F v] else [].
Proof.
  intros Hv. destruct b; [|reflexivity]. cbn [andb].
  assert (Hl : forall v', (if loc_eq_dec (L2 a i' j' v') (L2 a i j v) then true else false) =
     ((i' =? i) && (j' =? j)) && (v' =? v)).
  { intros v'. destruct (loc_eq_dec _ _) as [E|E].
    - inversion E. subst. lia.
    - symmetry. apply not_true_is_false. intros H. apply E. unfold L2. f_equal; lia. }
  unfold at_loc, vars2. cbn [map filter fst snd]. rewrite !Hl. unfold ID, IP, IU, IV.
  destruct ((i' =? i) && (j' =? j)); cbn [andb];
  assert (v = 0 \/ v = 1 \/ v = 2 \/ v = 3) as [->|[->|[->| ->]]] by lia; reflexivity.
Qed.

Lemma effects_all s i j : inner2_le m i j = true ->
  effects (all_fluxes_item2 m S g dt aout (i, j)) s =
  let X v := FX S g dt (get2 s A_Q) (Gf s) i j v in
  let Y v := FY S g dt (get2 s A_Q) (Gf s) i j v in
  let hx := hscale (solve S (face_state S g dt (get2 s A_Q) (Gf s) (i - 1) j XMAX)
                            (face_state S g dt (get2 s A_Q) (Gf s) i j XMIN)) (ndiv dt (dx S)) in
  let hy := hscale (swap_uv (solve S (swap_uv (face_state S g dt (get2 s A_Q) (Gf s) i (j - 1) YMAX))
                            (swap_uv (face_state S g dt (get2 s A_Q) (Gf s) i j YMIN)))) (ndiv dt (dy S)) in
  map (fun v => (L2 aout i j v, fun x => nadd x (hget hx v)))
      (if (j <? jsize m - gw m) && (i <? isize m - gw m) then vars2 else []) ++
  map (fun v => (L2 aout (i - 1) j v, fun x => nsub x (hget hx v)))
      (if (j <? jsize m - gw m) && (gw m <? i) then vars2 else []) ++
  map (fun v => (L2 aout i j v, fun x => nadd x (hget hy v)))
      (if (j <? jsize m - gw m) && (i <? isize m - gw m) then vars2 else []) ++
  map (fun v => (L2 aout i (j - 1) v, fun x => nsub x (hget hy v)))
      (if (gw m <? j) && (i <? isize m - gw m) then vars2 else []).
Proof.
  intros HG. unfold all_fluxes_item2. rewrite HG.
  rewrite !effects_slopes_at2, !effects_predict2, !effects_riemann2, !effects_atomics,
    !effects_slopes_at2, !effects_predict2, !effects_riemann2, !effects_atomics.
  cbn [effects]. rewrite app_nil_r. reflexivity.
Qed.

Definition Rq (l : loc) : Prop := la l = A_Q \/ la l = A_G.

Lemma foot_all c :
  foot Rq nowhere (fun l => la l = aout) (all_fluxes_item2 m S g dt aout c).
Proof.
  destruct c as [i j]. unfold all_fluxes_item2. destruct (inner2_le m i j); [|exact I].
  foots2; simpl; auto; try (left; reflexivity); try (right; reflexivity);
  intros; destruct (_ && _); simpl; reflexivity.
Qed.



(** Updates of location (aout,i,j,v) issued by each work item. *)
Lemma at_all s i j v c1 c2 : phys2 m i j -> 0 <= v < 4 -> In (c1, c2) (cells2 m) ->
  at_loc (L2 aout i j v) (effects (all_fluxes_item2 m S g dt aout (c1, c2)) s) =
  (if (c1 =? i) && (c2 =? j) then
     [ (fun x => nadd x (FX S g dt (get2 s A_Q) (Gf s) i j v));
       (fun x => nadd x (FY S g dt (get2 s A_Q) (Gf s) i j v)) ]
   else if (c1 =? i + 1) && (c2 =? j) then
     [ (fun x => nsub x (FX S g dt (get2 s A_Q) (Gf s) (i + 1) j v)) ]
   else if (c1 =? i) && (c2 =? j + 1) then
     [ (fun x => nsub x (FY S g dt (get2 s A_Q) (Gf s) i (j + 1) v)) ]
   else []).
Proof.
  intros Hp Hv Hc. destruct Hp as [Hi Hj]. unfold physical in Hi, Hj.
  apply in_range2 in Hc. unfold isize, jsize in Hc.
  destruct (inner2_le m c1 c2) eqn:HG.
  - rewrite effects_all by auto. cbv zeta. rewrite !at_loc_app, !at_loc_vars2 by auto.
    unfold inner2_le, isize, jsize in HG. unfold isize, jsize.
    destruct ((c1 =? i) && (c2 =? j)) eqn:E1.
    { replace c1 with i by lia. replace c2 with j by lia.
      replace (j <? _) with true by lia. replace (i <? _) with true by lia.
      replace (i - 1 =? i) with false by lia. replace (j - 1 =? j) with false by lia.
      rewrite !andb_false_r, !andb_true_r. cbn [andb app]. rewrite ?andb_false_r. cbn [app].
      unfold FX, FY. rewrite !hget_hscale by lia. reflexivity. }
    rewrite !andb_false_r. cbn [app].
    destruct ((c1 =? i + 1) && (c2 =? j)) eqn:E2.
    { replace c1 with (i + 1) by lia. replace c2 with j by lia.
      replace (j <? _) with true by lia. replace (gw m <? i + 1) with true by lia.
      replace (i + 1 - 1 =? i) with true by lia. replace (j =? j) with true by lia.
      replace (j - 1 =? j) with false by lia.
      rewrite !andb_false_r. cbn [andb app].
      unfold FX. rewrite !hget_hscale by lia. reflexivity. }
    replace ((c1 - 1 =? i) && (c2 =? j)) with false by lia.
    rewrite andb_false_r. cbn [app].
    destruct ((c1 =? i) && (c2 =? j + 1)) eqn:E3.
    { replace c1 with i by lia. replace c2 with (j + 1) by lia.
      replace (gw m <? j + 1) with true by lia. replace (i <? _) with true by lia.
      replace (j + 1 - 1 =? j) with true by lia. replace (i =? i) with true by lia.
      cbn [andb app]. unfold FY. rewrite !hget_hscale by lia. reflexivity. }
    replace ((c1 =? i) && (c2 - 1 =? j)) with false by lia.
    rewrite andb_false_r. reflexivity.
  - unfold all_fluxes_item2. rewrite HG. unfold inner2_le, isize, jsize in HG.
    replace ((c1 =? i) && (c2 =? j)) with false by lia.
    replace ((c1 =? i + 1) && (c2 =? j)) with false by lia.
    replace ((c1 =? i) && (c2 =? j + 1)) with false by lia. reflexivity.
Qed.

(** What version 2 achieves before the gravity source. *)
Definition adv_result_any (s s4 : store T) : Prop :=
  (forall i j v, phys2 m i j -> 0 <= v < 4 ->
     adv2_any_order S g dt (Ufield s) (Gf s) i j v (s4 (L2 aout i j v))) /\
  (forall i j v, cell2 m i j -> ~ phys2 m i j -> 0 <= v < 4 ->
     s4 (L2 aout i j v) = Ufield s i j v) /\
  (forall i j v, cell2 m i j -> 0 <= v < 4 -> s4 (L2 ain i j v) = Ufield s i j v) /\
  (forall i j v, s4 (L2 A_G i j v) = s (L2 A_G i j v)).

Lemma at_all_ghost s i j v c : cell2 m i j -> ~ phys2 m i j -> 0 <= v < 4 ->
  at_loc (L2 aout i j v) (effects (all_fluxes_item2 m S g dt aout c) s) = [].
Proof.
  intros Hc Hp Hv. destruct c as [c1 c2]. destruct (inner2_le m c1 c2) eqn:HG.
  - rewrite effects_all by auto. cbv zeta. rewrite !at_loc_app, !at_loc_vars2 by auto.
    unfold inner2_le, isize, jsize in HG. unfold isize, jsize.
    unfold phys2, physical in Hp. unfold cell2, isize, jsize in Hc.
    repeat match goal with |- context [if ?b then _ else _] =>
      replace b with false by (symmetry; lia) end. reflexivity.
  - unfold all_fluxes_item2. rewrite HG. reflexivity.
Qed.

Lemma scheme_V2 s s3 s4 :
  (forall i j v, cell2 m i j -> 0 <= v < 4 -> s3 (L2 ain i j v) = Ufield s i j v) ->
  (forall i j v, cell2 m i j -> 0 <= v < 4 -> s3 (L2 aout i j v) = Ufield s i j v) ->
  (forall i j, cell2 m i j -> get2 s3 A_Q i j = Qf S (Ufield s) i j) ->
  (forall i j v, s3 (L2 A_G i j v) = s (L2 A_G i j v)) ->
  execs inb s3 (scheme2 m S g dt V2 aout) s4 -> adv_result_any s s4.
Proof.
  intros Hi Ho HQ HG Hex. simpl in Hex. inv_execs Hex. inv_execs HT.
  assert (HRA : forall l, Rq l -> la l <> aout).
  { unfold Rq. intros l Hl E. destruct buf_out as [H | H]; rewrite H in E; destruct Hl; congruence. }
  assert (Hfr : forall l, la l <> aout -> s4 l = s3 l).
  { refine (proj1 (atomic_exec Rq (fun l => la l = aout) HRA inb s3 _ s4 _ HK)).
    apply Forall_forall. intros p Hp. apply in_map_iff in Hp. destruct Hp as (c & <- & _). apply foot_all. }
  assert (Hat := fun l => atomic_exec_at Rq (fun l => la l = aout) inb s3
     (all_fluxes_item2 m S g dt aout) (cells2 m) s4 l HRA (fun c _ => foot_all c) HK).
  split; [|split; [|split]].
  - intros i j v Hp Hv. destruct (Hat (L2 aout i j v)) as (ops & HP & E).
    exists ops. split.
    + etransitivity; [exact HP|].
      destruct Hp as [Hpi Hpj].
      etransitivity.
      { apply concat_pick with (picks := [(i, j); (i + 1, j); (i, j + 1)]).
        - apply nodup_range2.
        - assert (N1 : (i + 1, j) <> (i, j)) by (intros E1; inversion E1; lia).
          assert (N2 : (i, j + 1) <> (i, j)) by (intros E1; inversion E1; lia).
          assert (N3 : (i, j + 1) <> (i + 1, j)) by (intros E1; inversion E1; lia).
          constructor; [simpl; tauto|]. constructor; [simpl; tauto|].
          constructor; [simpl; tauto|constructor].
        - intros [c1 c2] Hc. apply in_range2. unfold physical in *. unfold isize, jsize.
          simpl in Hc. destruct Hc as [E1|[E1|[E1|[]]]]; inversion E1; subst; lia.
        - intros [c1 c2] Hc Hn. rewrite at_all; auto; [|split; auto].
          simpl in Hn.
          destruct ((c1 =? i) && (c2 =? j)) eqn:E1;
            [exfalso; apply Hn; left; f_equal; lia|].
          destruct ((c1 =? i + 1) && (c2 =? j)) eqn:E2;
            [exfalso; apply Hn; right; left; f_equal; lia|].
          destruct ((c1 =? i) && (c2 =? j + 1)) eqn:E3;
            [exfalso; apply Hn; right; right; left; f_equal; lia|]. reflexivity. }
      unfold physical in Hpi, Hpj.
      cbn [map concat].
      rewrite !at_all by (try (split; auto); try (apply in_range2; unfold isize, jsize); lia).
      rewrite !Z.eqb_refl. replace (i + 1 =? i) with false by lia.
      replace (j + 1 =? j) with false by lia. replace (i =? i + 1) with false by lia.
      cbn [andb app].
      rewrite !(FX_field s s3), !(FY_field s s3) by (auto; lia).
      constructor. apply perm_swap.
    + rewrite E. f_equal. apply Ho; auto. apply phys_cell; auto.
  - intros i j v Hc Hp Hv. destruct (Hat (L2 aout i j v)) as (ops & HP & E).
    rewrite concat_nil in HP by (intros; apply at_all_ghost; auto).
    apply Permutation_sym, Permutation_nil in HP. subst ops. rewrite E. simpl. apply Ho; auto.
  - intros. rewrite Hfr by (simpl; apply buf_ne). auto.
  - intros. rewrite Hfr by (simpl; destruct buf_out as [-> | ->]; congruence). auto.
Qed.

(** Result of a step of version 2: the flux contributions are applied in some
    order, then the gravity source. *)
Definition step_result_any (s s' : store T) : Prop :=
  exists W : field2 T,
  (forall i j v, phys2 m i j -> 0 <= v < 4 ->
     adv2_any_order S g dt (Ufield s) (Gf s) i j v (W i j v)) /\
  (forall i j v, phys2 m i j -> 0 <= v < 4 ->
     s' (L2 aout i j v) =
     if g_enabled g then grav_source S dt (Ufield s) (Gf s) W i j v else W i j v) /\
  (forall i j v, cell2 m i j -> ~ phys2 m i j -> 0 <= v < 4 ->
     s' (L2 aout i j v) = Ufield s i j v) /\
  (forall i j v, cell2 m i j -> 0 <= v < 4 -> s' (L2 ain i j v) = Ufield s i j v) /\
  (forall i j v, s' (L2 A_G i j v) = s (L2 A_G i j v)).

Lemma suffix_any s s4 s' : adv_result_any s s4 ->
  execs inb s4 (if g_enabled g then [map (gravity_item2 m S dt ain aout) (cells2 m)] else []) s' ->
  step_result_any s s'.
Proof.
  intros (A1 & A2 & A3 & A4) Hex. exists (fun i j v => s4 (L2 aout i j v)).
  split; [exact A1|]. destruct (g_enabled g).
  - inv_execs Hex. inv_execs HT.
    destruct (gravity_spec m S dt inb ain aout _ _ Hb HK) as (G1 & G2 & G3).
    repeat split.
    + intros i j v Hp Hv. rewrite G1 by (auto; lia). apply grav_source_ext; auto.
      apply A3; [apply phys_cell; auto|unfold ID; lia].
    + intros. rewrite G2; auto.
    + intros. rewrite G3; auto. simpl. apply buf_ne.
    + intros. rewrite G3; auto. simpl. destruct buf_out as [-> | ->]; congruence.
  - inv_execs Hex. repeat split; auto.
Qed.

Lemma body_V2 s s1 s' :
  (forall i j v, cell2 m i j -> 0 <= v < 4 -> s1 (L2 ain i j v) = Ufield s i j v) ->
  (forall i j v, s1 (L2 A_G i j v) = s (L2 A_G i j v)) ->
  execs inb s1 (godunov2_body m S g dt V2 ain aout) s' -> step_result_any s s'.
Proof.
  intros F1 F3 Hex. unfold godunov2_body in Hex.
  apply execs_app in Hex. destruct Hex as (s3 & H1 & H2).
  apply execs_app in H2. destruct H2 as (s4 & H2 & H3).
  destruct (prefix_spec s s1 s3 F1 F3 H1) as (P1 & P2 & P3 & P4).
  apply (suffix_any s s4 s'); auto. eapply scheme_V2; eauto.
Qed.

End Body.

(** ** A step without MPI: the field seen by the scheme is prescribed by the
    boundary types *)
Section Step.
Context {T : Type} {N : Num T} {O : NumOne T}.
Variable m : mesh.
Variable S : hset T.
Variable g : gravp.
Variable dt : T.
Variable inb : extents.
Hypothesis Hslope : slope_ok S.
Hypothesis Hsolver : solver_ok2 S.
Hypothesis Hwide : wide2 m.
Hypothesis Hgw : 2 <= gw m.
Hypothesis Hnv : nbvar m = 4.
Variables ain aout : arr.
Hypothesis Hb : buffers ain aout.

Lemma fill_part s s1 : execs inb s (make_boundaries2d m ain) s1 ->
  (forall i j v, cell2 m i j -> 0 <= v < 4 -> s1 (L2 ain i j v) = filled2 m ain s i j v) /\
  (forall i j v, s1 (L2 A_G i j v) = s (L2 A_G i j v)).
Proof.
  intros H1. destruct (fill2d_spec m ain inb s s1 Hwide H1) as (F1 & F2 & F3). split.
  - intros i j v Hc Hv. apply F1; auto. lia.
  - intros i j v. apply F3. simpl. destruct Hb as [[-> ->]|[-> ->]]; congruence.
Qed.

Theorem step_V01 iv s s' : iv = V0 \/ iv = V1 ->
  execs inb s (godunov2 m S g dt iv ain aout) s' ->
  step_result m S g dt ain aout (filled2 m ain) s s'.
Proof.
  intros Hiv Hex. apply execs_app in Hex. destruct Hex as (s1 & H1 & H2).
  destruct (fill_part s s1 H1) as [F1 F3]. eapply body_V01; eauto.
Qed.

Theorem step_V2 s s' : execs inb s (godunov2 m S g dt V2 ain aout) s' ->
  step_result_any m S g dt ain aout (filled2 m ain) s s'.
Proof.
  intros Hex. apply execs_app in Hex. destruct Hex as (s1 & H1 & H2).
  destruct (fill_part s s1 H1) as [F1 F3]. eapply body_V2; eauto.
Qed.

End Step.

(** ** Exact arithmetic: the order of accumulation does not matter *)
Lemma fold_perm_R ops1 ops2 : Permutation ops1 ops2 ->
  Forall additive ops1 -> forall x : R,
  fold_left (fun y f => f y) ops1 x = fold_left (fun y f => f y) ops2 x.
Proof.
  induction 1; intros HF z; simpl; auto.
  - inversion HF; subst. auto.
  - inversion HF as [|? ? Ha HF']; subst. inversion HF' as [|? ? Hb' HF'']; subst.
    f_equal. rewrite (Hb' (y z)), (Ha z), (Ha (x z)), (Hb' z). lra.
  - rewrite IHPermutation1; auto. apply IHPermutation2.
    eapply Permutation_Forall; eauto.
Qed.

Lemma any_order_R S g dt U G i j v x :
  adv2_any_order S g dt U G i j v x -> x = adv2 S g dt U G i j v.
Proof.
  intros (ops & HP & ->). apply Permutation_sym in HP.
  rewrite <- (fold_perm_R _ _ HP); [reflexivity|].
  repeat constructor; intro; unfold nadd, nsub; simpl; lra.
Qed.

