(** * Work items that inevitably use an uninitialised value *)
From Coq Require Import ZArith List Bool Lia ZifyBool String.
Import ListNotations.
From Verif Require Import Num Exec ExecFacts Grid GridFacts Boundaries BoundariesSpec
  BoundariesFacts BoundariesFill HydroNum Kernels KernelFacts Hydro2D Hydro2DSpec
  Hydro2DFacts Hydro2DRun.
Local Open Scope Z_scope.

Section Doomed.
Context {T : Type} {N : Num T}.

(** The item stays within bounds and ends in [Crash] whatever it reads. *)
Fixpoint doomed (inb : extents) (p : prog T) : Prop :=
  match p with
  | Done => False
  | Crash => True
  | Rd l k => inb l = true /\ forall v, doomed inb (k v)
  | Wr l _ k | Upd l _ k => inb l = true /\ doomed inb k
  end.

Lemma doomed_steps inb p : forall s P1 P2, doomed inb p ->
  exists s', psteps inb (s, P1 ++ p :: P2) (s', P1 ++ Crash :: P2).
Proof.
  induction p as [| |l k IH|l x k IH|l f k IH]; intros s P1 P2 Hd; simpl in Hd.
  - contradiction.
  - exists s. apply psteps_refl.
  - destruct Hd as [H1 H2]. destruct (IH (s l) s P1 P2 (H2 _)) as [s' Hs]. exists s'.
    eapply psteps_step; [|exact Hs]. constructor. simpl. rewrite H1. reflexivity.
  - destruct Hd as [H1 H2]. destruct (IH (upd s l x) P1 P2 H2) as [s' Hs]. exists s'.
    eapply psteps_step; [|exact Hs]. constructor. simpl. rewrite H1. reflexivity.
  - destruct Hd as [H1 H2]. destruct (IH (upd s l (f (s l))) P1 P2 H2) as [s' Hs]. exists s'.
    eapply psteps_step; [|exact Hs]. constructor. simpl. rewrite H1. reflexivity.
Qed.

Lemma doomed_unsafe inb s K p : In p K -> doomed inb p -> ~ safe inb s K.
Proof.
  intros Hin Hd HS. apply in_split in Hin. destruct Hin as (P1 & P2 & ->).
  destruct (doomed_steps inb p s P1 P2 Hd) as [s' Hs].
  apply (HS s' (P1 ++ Crash :: P2) Crash Hs); [apply in_elt|exact I].
Qed.

Lemma safes_app inb Ks1 : forall Ks2 s s1,
  safes inb s (Ks1 ++ Ks2) -> @execs T inb s Ks1 s1 -> safes inb s1 Ks2.
Proof.
  induction Ks1 as [|K Ks1 IH]; intros Ks2 s s1 HS HE; inversion HE; subst; auto.
  simpl in HS. inversion HS; subst. eapply IH; eauto.
Qed.

Lemma doomed_rd2 inb a i j k :
  (forall v, In v vars2 -> inb (L2 a i j v) = true) -> (forall q, doomed inb (k q)) ->
  doomed inb (rd2 a i j k).
Proof.
  intros Hb Hk. unfold rd2. simpl.
  repeat (split; [apply Hb; simpl; tauto|intros ?]). apply Hk.
Qed.

Lemma doomed_predict2 inb g dt i j q k :
  (g_enabled g = true -> inb (L2 A_G i j IX) = true /\ inb (L2 A_G i j IY) = true) ->
  (forall q, doomed inb (k q)) -> doomed inb (predict2 g dt i j q k).
Proof.
  intros Hb Hk. unfold predict2. destruct (g_enabled g && g_hancock g) eqn:E; auto.
  destruct Hb as [H1 H2]; [lia|]. simpl. auto.
Qed.

End Doomed.

Section Hydro.
Context {T : Type} {N : Num T}.
Variable m : mesh.
Variable S : hset T.
Variable g : gravp.
Variable dt : T.
Hypothesis Hwide : wide2 m.
Hypothesis Hgw : 2 <= gw m.
Hypothesis Hnv : nbvar m = 4.
Variables ain aout : arr.
Hypothesis Hb : buffers ain aout.

Let inb (iv : impl) := alloc2d m (nv2 m g iv).

Lemma prefix_runs iv s : exists s', execs (inb iv) s
  (make_boundaries2d m ain ++ [deep_copy2 m aout ain; map (convert_item2 m S ain) (cells2 m)]) s'.
Proof.
  apply in_foot_execs.
  assert (Hcell : forall i j, In (i, j) (cells2 m) -> 0 <= i < nx m + 2 * gw m /\ 0 <= j < ny m + 2 * gw m).
  { intros i j Hc. apply in_range2 in Hc. unfold isize, jsize in Hc. lia. }
  assert (Hain : nv2 m g iv ain = 4) by (destruct Hb as [[-> ->]|[-> ->]]; simpl; auto).
  assert (Haout : nv2 m g iv aout = 4) by (destruct Hb as [[-> ->]|[-> ->]]; simpl; auto).
  apply Forall_app. split.
  { pose proof Hwide as (Hg & Hv & H1 & H2 & H3 & H4). apply fill2d_in_foot; auto.
    intros. apply alloc2_ok; unfold isize, jsize in *; lia. }
  repeat constructor.
  - apply kernel_in_bounds. intros [i j] Hc. apply Hcell in Hc. unfold in_foot.
    apply foot_copy_n. intros. split; apply alloc2_ok; lia.
  - apply kernel_in_bounds. intros [i j] Hc. apply Hcell in Hc. unfold in_foot, convert_item2.
    destruct (_ && _); [|exact I].
    apply foot_rd2; [intros v Hv; apply in_vars2 in Hv; apply alloc2_ok; lia|].
    intros. apply foot_wr2; [intros v Hv; apply in_vars2 in Hv; apply alloc2_ok; simpl; lia|exact I].
Qed.

Lemma nx1 : 1 <= nx m. Proof. pose proof Hwide as (_ & _ & (A & _) & _). exact A. Qed.
Lemma ny1 : 1 <= ny m. Proof. pose proof Hwide as (_ & _ & _ & _ & (A & _) & _). exact A. Qed.

Lemma gw_cell : In (gw m, gw m) (cells2 m) /\ inner2_le m (gw m) (gw m) = true.
Proof.
  pose proof nx1. pose proof ny1. split.
  - apply in_range2. unfold isize, jsize. lia.
  - unfold inner2_le, isize, jsize. lia.
Qed.

Lemma unsafe_scheme iv s Ks1 K Ks2 p :
  scheme2 m S g dt iv aout = Ks1 ++ K :: Ks2 ->
  (forall s, exists s', execs (inb iv) s Ks1 s') ->
  In p K -> doomed (inb iv) p ->
  ~ safes (inb iv) s (godunov2 m S g dt iv ain aout).
Proof.
  intros E Hrun Hin Hd HS. unfold godunov2, godunov2_body in HS. rewrite app_assoc in HS.
  destruct (prefix_runs iv s) as [s1 H1]. pose proof (safes_app _ _ _ _ _ HS H1) as HS1.
  rewrite E, <- app_assoc in HS1. destruct (Hrun s1) as [s2 H2].
  pose proof (safes_app _ _ _ _ _ HS1 H2) as HS2. inversion HS2; subst.
  eapply doomed_unsafe; eauto.
Qed.

Lemma inQ iv i j v : -1 <= i - gw m <= 1 \/ i = gw m - 2 -> -1 <= j - gw m <= 1 \/ j = gw m - 2 ->
  In v vars2 -> inb iv (L2 A_Q i j v) = true.
Proof.
  intros Hi Hj Hv. apply in_vars2 in Hv. pose proof nx1. pose proof ny1.
  apply alloc2_ok; simpl; lia.
Qed.

(** With an unknown slope type the first item of the flux kernel of versions 0
    and 2 uses slopes that were never set. *)
Lemma bad_slope_doomed iv (k : hs T -> hs T -> hs T -> prog T) :
  ~ slope_ok S -> doomed (inb iv) (slopes_at2 S (gw m) (gw m) k).
Proof.
  intros Hs. unfold slopes_at2.
  repeat (apply doomed_rd2; [intros; apply inQ; auto; lia|intros]).
  unfold slopes2. unfold slope_ok in Hs.
  destruct (neqb (slope_type S) n0); [exfalso; apply Hs; reflexivity|].
  destruct (neqb (slope_type S) n1); [exfalso; apply Hs; reflexivity|].
  destruct (neqb (slope_type S) n2); [exfalso; apply Hs; reflexivity|].
  exact I.
Qed.

Theorem bad_slope_unsafe iv s : iv = V0 \/ iv = V2 -> ~ slope_ok S ->
  ~ safes (inb iv) s (godunov2 m S g dt iv ain aout).
Proof.
  intros Hiv Hs. destruct gw_cell as [Hin Hg]. destruct Hiv as [-> | ->].
  - apply (unsafe_scheme V0 s [] (map (fluxes_item2 m S g dt) (cells2 m)) [map (update_item2 m aout) (cells2 m)]
      (fluxes_item2 m S g dt (gw m, gw m))); auto.
    + intros s0. exists s0. constructor.
    + apply in_map. auto.
    + unfold fluxes_item2. rewrite Hg. apply bad_slope_doomed; auto.
  - apply (unsafe_scheme V2 s [] (map (all_fluxes_item2 m S g dt aout) (cells2 m)) []
      (all_fluxes_item2 m S g dt aout (gw m, gw m))); auto.
    + intros s0. exists s0. constructor.
    + apply in_map. auto.
    + unfold all_fluxes_item2. rewrite Hg. apply bad_slope_doomed; auto.
Qed.

Lemma doomed_slopes_at2 iv i j k : slope_ok S ->
  -1 <= i - gw m <= 0 -> -1 <= j - gw m <= 0 ->
  (forall q a b, doomed (inb iv) (k q a b)) -> doomed (inb iv) (slopes_at2 S i j k).
Proof.
  intros Hs Hi Hj Hk. unfold slopes_at2.
  repeat (apply doomed_rd2; [intros; apply inQ; auto; lia|intros]).
  destruct (slopes2 S q q0 q1 q2 q3) as [d|] eqn:E; [apply Hk|].
  exfalso. eapply slopes2_some; eauto.
Qed.

Lemma inG iv i j : -1 <= i - gw m <= 0 -> -1 <= j - gw m <= 0 -> g_enabled g = true ->
  inb iv (L2 A_G i j IX) = true /\ inb iv (L2 A_G i j IY) = true.
Proof.
  intros Hi Hj E. pose proof nx1. pose proof ny1.
  split; apply alloc2_ok; simpl; rewrite ?E; unfold IX, IY; lia.
Qed.

(** With the solver type HLLD the flux is never computed. *)
Theorem hlld_unsafe iv s : slope_ok S -> solver S = R_HLLD ->
  ~ safes (inb iv) s (godunov2 m S g dt iv ain aout).
Proof.
  intros Hs Hr. destruct gw_cell as [Hin Hg]. destruct iv.
  - apply (unsafe_scheme V0 s [] (map (fluxes_item2 m S g dt) (cells2 m)) [map (update_item2 m aout) (cells2 m)]
      (fluxes_item2 m S g dt (gw m, gw m))); auto.
    + intros s0. exists s0. constructor.
    + apply in_map. auto.
    + unfold fluxes_item2. rewrite Hg.
      apply doomed_slopes_at2; auto; try lia. intros. apply doomed_slopes_at2; auto; try lia. intros.
      apply doomed_predict2; [apply inG; lia|]. intros. apply doomed_predict2; [apply inG; lia|]. intros.
      unfold riemann2. rewrite Hr. exact I.
  - apply (unsafe_scheme V1 s [map (slopes_item2 m S) (cells2 m)]
      (map (trace_fluxes_item2 m S g dt true A_Fx) (cells2 m))
      [ map (update_dir_item2 m true aout A_Fx) (cells2 m);
            map (trace_fluxes_item2 m S g dt false A_Fx) (cells2 m);
            map (update_dir_item2 m false aout A_Fx) (cells2 m) ]
      (trace_fluxes_item2 m S g dt true A_Fx (gw m, gw m))); auto.
    + intros s0. apply in_foot_execs. repeat constructor.
      apply kernel_in_bounds. intros [i j] Hc. unfold in_foot, slopes_item2.
      destruct (_ && _) eqn:HG; [|exact I]. unfold isize, jsize in HG.
      repeat (apply foot_rd2; [intros v Hv; apply in_vars2 in Hv; apply alloc2_ok; simpl; lia|intros]).
      apply foot_wr2; [intros v Hv; apply in_vars2 in Hv; apply alloc2_ok; simpl; lia|].
      apply foot_wr2; [intros v Hv; apply in_vars2 in Hv; apply alloc2_ok; simpl; lia|exact I].
    + apply in_map. auto.
    + unfold trace_fluxes_item2. rewrite Hg. pose proof nx1. pose proof ny1.
      repeat (apply doomed_rd2; [intros v Hv; apply in_vars2 in Hv; apply alloc2_ok; simpl; lia|intros]).
      apply doomed_predict2; [apply inG; lia|]. intros.
      repeat (apply doomed_rd2; [intros v Hv; apply in_vars2 in Hv; apply alloc2_ok; simpl; lia|intros]).
      apply doomed_predict2; [apply inG; lia|]. intros.
      unfold riemann2. rewrite Hr. exact I.
  - apply (unsafe_scheme V2 s [] (map (all_fluxes_item2 m S g dt aout) (cells2 m)) []
      (all_fluxes_item2 m S g dt aout (gw m, gw m))); auto.
    + intros s0. exists s0. constructor.
    + apply in_map. auto.
    + unfold all_fluxes_item2. rewrite Hg.
      apply doomed_slopes_at2; auto; try lia. intros. apply doomed_slopes_at2; auto; try lia. intros.
      apply doomed_predict2; [apply inG; lia|]. intros. apply doomed_predict2; [apply inG; lia|]. intros.
      unfold riemann2. rewrite Hr. exact I.
Qed.

End Hydro.

(** Riemann solver of a configuration string: HydroParams.cpp:122-148. *)
Definition parse_riemann (s : string) : rsolver :=
  if String.eqb s "approx" then R_APPROX
  else if String.eqb s "llf" then R_LLF
  else if String.eqb s "hll" then R_HLL
  else if String.eqb s "hllc" then R_HLLC
  else if String.eqb s "hlld" then R_HLLD
  else R_APPROX.
