(** * The 2D MHD scheme under exchange of the axes *)
From Coq Require Import ZArith List Bool Reals Lra Lia.
Import ListNotations.
From Verif Require Import Num Exec Grid HydroNum Kernels Hydro2DSpec BoundariesSpec
  HydroPhysics Hydro2DRun Hydro2DLaws MhdNum Mhd2DSpec Mhd2DAgree Mhd2DFacts Mhd2DRun MhdSymSpec MhdSym.
Local Open Scope R_scope.

(** Exchange of the axes: momenta and the two face-centred components change places. *)
Definition mswap_var (v : Z) : Z :=
  if (v =? IU)%Z then IV else if (v =? IV)%Z then IU else if (v =? IA)%Z then IB else if (v =? IB)%Z then IA else v.
Definition mtranspose (u : field2 R) : field2 R := fun i j v => u j i (mswap_var v).

Lemma mswap_var_range v : (0 <= v < 8)%Z -> (0 <= mswap_var v < 8)%Z.
Proof.
  intros. unfold mswap_var, IU, IV, IA, IB.
  destruct (v =? 2)%Z, (v =? 3)%Z, (v =? 5)%Z, (v =? 6)%Z; lia.
Qed.

Section Swap.
Variable m : mesh.
Variable S : hset R.

Lemma mextend_transpose u i j v : (0 <= v < 8)%Z ->
  extend (swap_mesh m) (mtranspose u) i j v = mtranspose (extend m u) i j v.
Proof.
  intros Hv. unfold mtranspose, extend.
  change (image_x (swap_mesh m) i) with (image_y m i). change (image_y (swap_mesh m) j) with (image_x m j).
  change (mirrored_x (swap_mesh m) i) with (mirrored_y m i). change (mirrored_y (swap_mesh m) j) with (mirrored_x m j).
  change (p_mhd (swap_mesh m)) with (p_mhd m).
  assert (v = 0 \/ v = 1 \/ v = 2 \/ v = 3 \/ v = 4 \/ v = 5 \/ v = 6 \/ v = 7)%Z
    as [->|[->|[->|[->|[->|[->|[->| ->]]]]]]] by lia;
  unfold mswap_var, odd_x, odd_y, flip_if, IU, IV, IA, IB; cbn [Z.eqb Pos.eqb];
  destruct (p_mhd m), (mirrored_x m j), (mirrored_y m i); reflexivity.
Qed.

Lemma prim_mhd_sw u x y z : prim_mhd (swap_set S) (sw u) y x z = sw (prim_mhd S u x y z).
Proof.
  unfold prim_mhd, sw. cbv zeta. cbn [md mp mu mv mw ma mb mc]. Rn.
  f_equal. f_equal. cbn [gamma0 swap_set smallr]. unfold Rdiv. ring.
Qed.

Lemma mQ_transpose U i j : mQ (swap_set S) (mtranspose U) i j = sw (mQ S U j i).
Proof. unfold mQ. rewrite <- prim_mhd_sw. reflexivity. Qed.

Lemma slope1_swap_set a b c : slope1 (swap_set S) a b c = slope1 S a b c.
Proof. reflexivity. Qed.

Definition bsw (b : bf R) : bf R := mkbf (by_ b) (bx b) (bz b).
Definition tsw (t : traced R) : traced R :=
  mktraced (sw (t_my t)) (sw (t_py t)) (sw (t_mx t)) (sw (t_px t))
           (sw (t_rt t)) (sw (t_lt t)) (sw (t_rb t)) (sw (t_lb t)).

Lemma elec2_sw q00 q01 q10 q11 a1 a2 b1 b2 :
  elec2 (sw q00) (sw q10) (sw q01) (sw q11) b1 b2 a1 a2 = - elec2 q00 q01 q10 q11 a1 a2 b1 b2.
Proof. unfold elec2, sw. cbn [mu mv]. Rn. ring. Qed.

Lemma source2_sw q hx hy dA dB dtdx dtdy :
  source2 (swap_set S) (sw q) (sw hy) (sw hx) dB dA dtdy dtdx = sw (source2 S q hx hy dA dB dtdx dtdy).
Proof.
  unfold source2, sw. cbn [md mp mu mv mw ma mb mc]. Rn.
  change (gamma0 (swap_set S)) with (gamma0 S).
  f_equal; unfold Rdiv; ring.
Qed.

Lemma mslope_sw a b c : mslope (swap_set S) (sw a) (sw b) (sw c) = sw (mslope S a b c).
Proof. reflexivity. Qed.
Lemma mfloor_sw q : mfloor (swap_set S) (sw q) = sw (mfloor S q).
Proof. reflexivity. Qed.
Lemma mscale_sw q x : mscale (sw q) x = sw (mscale q x).
Proof. reflexivity. Qed.
Lemma mmap2_sw f p q : mmap2 f (sw p) (sw q) = sw (mmap2 f p q).
Proof. reflexivity. Qed.
Lemma set_ab_sw' q a b : set_ab (sw q) a b = sw (set_ab q b a).
Proof. reflexivity. Qed.
Lemma set_a_sw q a : set_a (sw q) a = sw (set_ab q (ma q) a).
Proof. reflexivity. Qed.

Lemma trace_sw q b dtdx dtdy :
  trace_mhd2 (swap_set S) (fun di dj => sw (q dj di)) (fun di dj => bsw (b dj di)) dtdy dtdx =
  option_map tsw (trace_mhd2 S q b dtdx dtdy).
Proof.
  unfold trace_mhd2, mslopes2. change (slope_type (swap_set S)) with (slope_type S).
  destruct (neqb (slope_type S) n1 || neqb (slope_type S) n2)%bool; [|reflexivity].
  cbv zeta. cbn [option_map]. f_equal. unfold tsw. cbn [t_mx t_px t_my t_py t_rt t_lt t_rb t_lb].
  cbn [bsw bx by_]. rewrite !mslope_sw, !mscale_sw, !elec2_sw, !source2_sw, !mmap2_sw.
  cbn [Nat.add].
  rewrite !slope1_swap_set.
  rewrite !set_ab_sw', !set_a_sw, !mfloor_sw.
  f_equal; apply f_equal; apply f_equal; unfold sw; apply ms_eq; cbn; Rn; try ring.
Qed.

Lemma mtr_transpose dt U i j :
  mtr (swap_set S) dt (mQ (swap_set S) (mtranspose U)) (mtranspose U) i j = tsw (mtr S dt (mQ S U) U j i).
Proof.
  unfold mtr. cbv zeta.
  erewrite (trace_mhd2_ext (swap_set S) _
    (fun di dj => sw (mQ S U (j + Z.of_nat dj - 1) (i + Z.of_nat di - 1)))
    _ (fun di dj => bsw (mkbf (U (j + Z.of_nat dj - 1)%Z (i + Z.of_nat di - 1)%Z IA)
                             (U (j + Z.of_nat dj - 1)%Z (i + Z.of_nat di - 1)%Z IB)
                             (U (j + Z.of_nat dj - 1)%Z (i + Z.of_nat di - 1)%Z IC)))).
  - rewrite (trace_sw (fun di dj => mQ S U (j + Z.of_nat di - 1) (i + Z.of_nat dj - 1))
      (fun di dj => mkbf (U (j + Z.of_nat di - 1)%Z (i + Z.of_nat dj - 1)%Z IA)
                         (U (j + Z.of_nat di - 1)%Z (i + Z.of_nat dj - 1)%Z IB)
                         (U (j + Z.of_nat di - 1)%Z (i + Z.of_nat dj - 1)%Z IC))).
    change (dy (swap_set S)) with (dx S). change (dx (swap_set S)) with (dy S).
    destruct (trace_mhd2 S _ _ _ _); reflexivity.
  - intros. apply mQ_transpose.
  - intros. reflexivity.
Qed.

(** The solvers use gamma only. *)
Lemma fast_x_same : fast_x (swap_set S) = fast_x S.
Proof. reflexivity. Qed.
Lemma fast_y_same : fast_y (swap_set S) = fast_y S.
Proof. reflexivity. Qed.
Lemma flux_same : mhd_flux (swap_set S) = mhd_flux S.
Proof. reflexivity. Qed.
Lemma gamma_same : gamma0 (swap_set S) = gamma0 S.
Proof. reflexivity. Qed.
Lemma llf_same ql qr : mhd_llf (swap_set S) ql qr = mhd_llf S ql qr.
Proof. reflexivity. Qed.
Lemma hll_same ql qr : mhd_hll (swap_set S) ql qr = mhd_hll S ql qr.
Proof. unfold mhd_hll. rewrite flux_same, fast_x_same. reflexivity. Qed.
Lemma hlld_fan_same ql qr : hlld_fan (swap_set S) ql qr = hlld_fan S ql qr.
Proof. unfold hlld_fan. rewrite fast_x_same, gamma_same. reflexivity. Qed.
Lemma speeds_same : emf_speeds (swap_set S) = emf_speeds S.
Proof. reflexivity. Qed.
Lemma regions_same a b c d e f g h : emf_regions (swap_set S) a b c d e f g h = emf_regions S a b c d e f g h.
Proof. unfold emf_regions. rewrite speeds_same. reflexivity. Qed.

Lemma hlld_same ql qr : mhd_hlld (swap_set S) ql qr = mhd_hlld S ql qr.
Proof. unfold mhd_hlld. rewrite hlld_fan_same. reflexivity. Qed.
Lemma msolve_swap_set ql qr : msolve (swap_set S) ql qr = msolve S ql qr.
Proof.
  unfold msolve, riemann_mhd. change (solver (swap_set S)) with (solver S).
  rewrite hlld_same, hll_same, llf_same. reflexivity.
Qed.
Lemma emf_swap_set d a b c e : compute_emf (swap_set S) d a b c e = compute_emf S d a b c e.
Proof.
  unfold compute_emf. cbv zeta. unfold mag_riemann2d. rewrite speeds_same, regions_same. reflexivity.
Qed.
Lemma sw_sw q : sw (sw q) = q.
Proof. destruct q. reflexivity. Qed.

Lemma mFX_transpose dt U i j :
  mFX (swap_set S) dt (mQ (swap_set S) (mtranspose U)) (mtranspose U) i j = sw (mFY S dt (mQ S U) U j i).
Proof.
  unfold mFX, mFY. rewrite !mtr_transpose, msolve_swap_set. change (@swap_xy R) with sw. rewrite sw_sw. reflexivity.
Qed.
Lemma mFY_transpose dt U i j :
  mFY (swap_set S) dt (mQ (swap_set S) (mtranspose U)) (mtranspose U) i j = sw (mFX S dt (mQ S U) U j i).
Proof.
  unfold mFX, mFY. rewrite !mtr_transpose, msolve_swap_set. change (@swap_xy R) with sw. unfold tsw. cbn [t_my t_py].
  rewrite !sw_sw. reflexivity.
Qed.
Lemma mE_transpose dt U i j :
  mE (swap_set S) dt (mQ (swap_set S) (mtranspose U)) (mtranspose U) i j = - mE S dt (mQ S U) U j i.
Proof.
  unfold mE. rewrite !mtr_transpose, emf_swap_set. unfold tsw. cbn [t_rt t_rb t_lt t_lb]. apply emf_sw.
Qed.

Lemma mstep_transpose dt U i j v : (0 <= v < 8)%Z ->
  mstep2 (swap_set S) dt (mtranspose U) i j v = mtranspose (mstep2 S dt U) i j v.
Proof.
  intros Hv. unfold mtranspose at 2. unfold mstep2, mbalance.
  rewrite !mFX_transpose, !mFY_transpose, !mE_transpose.
  change (dy (swap_set S)) with (dx S). change (dx (swap_set S)) with (dy S).
  assert (v = 0 \/ v = 1 \/ v = 2 \/ v = 3 \/ v = 4 \/ v = 5 \/ v = 6 \/ v = 7)%Z
    as [->|[->|[->|[->|[->|[->|[->| ->]]]]]]] by lia;
  cbv beta iota delta [mtranspose mswap_var mget ID IP IU IV IW IA IB IC Z.eqb Pos.eqb sw md mp mu mv mw ma mb mc];
  Rn; ring.
Qed.
End Swap.

Lemma mrun_transpose m S dts : forall u, wide2 m -> (3 <= gw m)%Z ->
  msame (swap_mesh m) (mrun_spec (swap_mesh m) (swap_set S) dts (mtranspose u))
                      (mtranspose (mrun_spec m S dts u)).
Proof.
  induction dts as [|dt dts IH]; intros u Hw Hgw; cbn [mrun_spec].
  - intros i j v _ _. reflexivity.
  - intros i j v Hp Hv. rewrite <- IH by auto.
    apply mrun_spec_ext; auto using wide2_swap.
    intros i' j' v' Hp' Hv'. rewrite <- mstep_transpose by auto.
    apply mstep2_stencil; auto. intros. apply mextend_transpose; auto.
Qed.
