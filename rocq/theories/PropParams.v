(** * C30 (reals) and C56: parameters of the problems *)
From Coq Require Import Ascii String ZArith List Bool Reals Lia Lra Floats.SpecFloat.
From Flocq Require Import Core.Core IEEE754.BinarySingleNaN.
From Verif Require Import ConfigSpec DecimalSpec HydroNum Config ConfigFacts ConfigNumbers PropConfig DecimalFacts
  Num Params Binary64 Binary64Valid Init ProblemParams MidFacts.
Import ListNotations.
Local Open Scope Z_scope.
Local Notation length := List.length.

(** ** C30: a real number written in decimal is read as the nearest float *)
Theorem C30_decimals : forall (t : chars) c ls out err s n v y,
  no_nul t -> obtains (Some t) c -> lines_of t ls -> means 1 [] [] ls out err ->
  dotless s -> sections_dotless out -> latest s n out v -> decimal_text v y ->
  exists x, is_float_of y x /\ forall d, get_float c s n d = x.
Proof.
  intros t c ls out err s n v y Ht Hc Hl Hm Hs Ho Hv Hy.
  assert (E : get_string c s n [] = v) by (apply (C30_last_definition_wins t c ls out err s n []); auto).
  destruct (strtof_decimal v y Hy) as (x & Ex & Hx). exists x; split; [ exact Hx |]. intros d.
  unfold get_float. rewrite E, cstr_id, Ex; [ reflexivity |].
  destruct Hy as (sg & ip & dot & fp & e & k & -> & Hsg & Hi & Hf & _ & Hdot & He & _).
  assert (D : forall l, Forall decimal l -> ~ In nul l).
  { intros l Hl' Hin. rewrite Forall_forall in Hl'. specialize (Hl' _ Hin). unfold decimal in Hl'. cbn in Hl'. lia. }
  assert (G : forall g, signed g -> ~ In nul g).
  { intros g [-> | [-> | ->]]; cbn; [ tauto | |]; intros [E' | []]; discriminate E'. }
  rewrite !in_app_iff. intros [H | [H | [H | [H | H]]]].
  - exact (G sg Hsg H).
  - exact (D ip Hi H).
  - destruct Hdot as [-> | (-> & _)]; [ destruct H as [H | []]; discriminate | destruct H ].
  - exact (D fp Hf H).
  - destruct He as [(-> & _) | (ch & sg' & ds & -> & Hch & Hs' & _ & Hd & _)]; [ destruct H |].
    destruct H as [H | H]; [ destruct Hch; subst ch; discriminate |].
    apply in_app_iff in H; destruct H as [H | H]; [ exact (G sg' Hs' H) | exact (D ds Hd H) ].
Qed.
Print Assumptions C30_decimals.
Example C30_decimals_case : decimal_text (lit "-12.5E-1") (-(5/4)).
Proof.
  assert (D : forall l, forallb (fun c => (48 <=? code c) && (code c <=? 57)) l = true -> Forall decimal l).
  { intros l H. rewrite forallb_forall in H. apply Forall_forall. intros c Hc. specialize (H c Hc).
    apply andb_true_iff in H. destruct H as [H1 H2]. apply Z.leb_le in H1, H2. apply decimal_code. lia. }
  exists (lit "-"), (lit "12"), (lit "."), (lit "5"), (lit "E-1"), (-1).
  split; [ reflexivity |]. split; [ right; left; reflexivity |].
  split; [ apply D; reflexivity |]. split; [ apply D; reflexivity |]. split; [ discriminate |].
  split; [ left; reflexivity |]. split.
  - right; exists "E"%char, (lit "-"), (lit "1"). split; [ reflexivity |]. split; [ auto |].
    split; [ right; left; reflexivity |]. split; [ discriminate |]. split; [ apply D; reflexivity | reflexivity ].
  - change (signum (lit "-") * dvalue (lit "12" ++ lit "5")) with (-125).
    change (-1 - Z.of_nat (length (lit "5"))) with (-2).
    replace (powerRZ 10 (-2)) with (/ 100)%R
      by (change (-2) with (Z.opp 2); rewrite powerRZ_neg'; f_equal; change 2 with (Z.of_nat 2); rewrite <- pow_powerRZ; cbn; ring). lra.
Qed.

(** ** C56: every parameter from its own key *)

(** What the settings [out] of a file give for a key whose default is [d]: the value of the
    last setting if it can be read, otherwise the default. *)
Inductive gives {A : Type} (read : chars -> option A) (s n : string) (d : A) (out : list (chars * chars * chars)) : A -> Prop :=
| gives_own v x : latest (lit s) (lit n) out v -> read v = Some x -> gives read s n d out x
| gives_unreadable v : latest (lit s) (lit n) out v -> read v = None -> gives read s n d out d
| gives_default : unset (lit s) (lit n) out -> gives read s n d out d.

(** Reading one value: reals to float, integers to int, words to truth values. *)
Definition as_real (v : chars) : option b32 := strtof (cstr v).
Definition as_int (v : chars) : option Z := option_map to_int (strtol0 (cstr v)).
Definition as_bool (v : chars) : option bool :=
  if in_dec (list_eq_dec ascii_dec) v yes_words then Some true
  else if in_dec (list_eq_dec ascii_dec) v no_words then Some false else None.

Lemma latest_or_unset s n out : (exists v, latest s n out v) \/ unset s n out.
Proof.
  induction out as [|[[sec nm] v] out IH]; [ right; constructor |].
  destruct IH as [(v' & b & sec' & nm' & a & -> & H) | IH].
  { left; exists v', ((sec, nm, v) :: b), sec', nm', a; split; [ reflexivity | exact H ]. }
  assert (D : {same sec s /\ same nm n} + {~ (same sec s /\ same nm n)}).
  { destruct (list_eq_dec ascii_dec (map tolower sec) (map tolower s)) as [E1 | E1];
    [ destruct (list_eq_dec ascii_dec (map tolower nm) (map tolower n)) as [E2 | E2] |].
    - left; split; apply lower_same; assumption.
    - right; intros [_ K]; apply E2, lower_same, K.
    - right; intros [K _]; apply E1, lower_same, K. }
  destruct D as [[D1 D2] | D].
  - left; exists v, [], sec, nm, out; repeat split; assumption.
  - right; constructor; assumption.
Qed.

Lemma gives_some {A} (read : chars -> option A) s n d out : exists x, gives read s n d out x.
Proof.
  destruct (latest_or_unset (lit s) (lit n) out) as [(v & H) | H].
  - destruct (read v) as [x|] eqn:E; [ exists x; eapply gives_own | exists d; eapply gives_unreadable ]; eassumption.
  - exists d; apply gives_default; exact H.
Qed.

(** A parameter file, its settings and what a process has read. *)
Definition settings_of (out : list (chars * chars * chars)) (c : cmap) : Prop :=
  exists t ls err, no_nul t /\ obtains (Some t) c /\ lines_of t ls /\ means 1 [] [] ls out err /\ sections_dotless out.

Lemma gives_get {A} (read : chars -> option A) (get : cmap -> text -> text -> A -> A) s n d out c x :
  read [] = None ->
  (forall m sec nm d, get m sec nm d = match read (get_string m sec nm []) with Some x => x | None => d end) ->
  dotless (lit s) -> settings_of out c -> gives read s n d out x -> get c (lit s) (lit n) d = x.
Proof.
  intros R0 G Hs (t & ls & err & Ht & Hc & Hl & Hm & Ho) H. rewrite G.
  destruct (C30_last_definition_wins t c ls out err (lit s) (lit n) [] Ht Hc Hl Hm Hs Ho) as [K1 K2].
  destruct H as [v x Hv Hr | v Hv Hr | Hu].
  - rewrite (K1 v Hv), Hr; reflexivity.
  - rewrite (K1 v Hv), Hr; reflexivity.
  - rewrite (K2 Hu), R0; reflexivity.
Qed.

Lemma real_gives out c s n d x : dotless (lit s) -> settings_of out c ->
  gives as_real s n d out x -> get_float c (lit s) (lit n) d = x.
Proof. intros Hs Hc; apply gives_get; auto. Qed.

Lemma int_gives out c s n d x : dotless (lit s) -> settings_of out c -> to_int d = d ->
  gives as_int s n d out x -> int_setting c s n d = x.
Proof.
  intros Hs (t & ls & err & Ht & Hc & Hl & Hm & Ho) Hd H. unfold int_setting, get_integer.
  destruct (C30_last_definition_wins t c ls out err (lit s) (lit n) [] Ht Hc Hl Hm Hs Ho) as [K1 K2].
  destruct H as [v x Hv Hr | v Hv Hr | Hu].
  - rewrite (K1 v Hv). unfold as_int in Hr. destruct (strtol0 (cstr v)); cbn in Hr; congruence.
  - rewrite (K1 v Hv). unfold as_int in Hr. destruct (strtol0 (cstr v)); cbn in Hr; congruence.
  - rewrite (K2 Hu). exact Hd.
Qed.

Lemma bool_gives out c s n d x : dotless (lit s) -> settings_of out c ->
  gives as_bool s n d out x -> get_bool c (lit s) (lit n) d = x.
Proof.
  intros Hs Hc; apply gives_get; auto. intros m sec nm d0.
  destruct (C30_booleans m sec nm d0 _ eq_refl) as (K1 & K2 & K3). unfold as_bool.
  destruct (in_dec (list_eq_dec ascii_dec) (get_string m sec nm []) yes_words) as [Y | Y]; [ auto |].
  destruct (in_dec (list_eq_dec ascii_dec) (get_string m sec nm []) no_words) as [N | N]; auto.
Qed.

(** The documented parameters: section, key, default and the place they go to. *)
Section Documented.
Context {T : Type}.
Inductive entry :=
| Real (s n : string) (default : string) (place : problems T -> T)
| Int (s n : string) (default : Z) (place : problems T -> Z)
| Flag (s n : string) (default : bool) (place : problems T -> bool).

Definition documented_params : list entry :=
  [ Real "implode" "density_outer" "1.0" (fun P => g_rho (i_out (p_implode P)));
    Real "implode" "pressure_outer" "1.0" (fun P => g_p (i_out (p_implode P)));
    Real "implode" "vx_outer" "0.0" (fun P => g_u (i_out (p_implode P)));
    Real "implode" "vy_outer" "0.0" (fun P => g_v (i_out (p_implode P)));
    Real "implode" "vz_outer" "0.0" (fun P => g_w (i_out (p_implode P)));
    Real "implode" "Bx_outer" "0.0" (fun P => g_bx (i_out (p_implode P)));
    Real "implode" "By_outer" "0.0" (fun P => g_by (i_out (p_implode P)));
    Real "implode" "Bz_outer" "0.0" (fun P => g_bz (i_out (p_implode P)));
    Real "implode" "density_inner" "0.125" (fun P => g_rho (i_in (p_implode P)));
    Real "implode" "pressure_inner" "0.14" (fun P => g_p (i_in (p_implode P)));
    Real "implode" "vx_inner" "0.0" (fun P => g_u (i_in (p_implode P)));
    Real "implode" "vy_inner" "0.0" (fun P => g_v (i_in (p_implode P)));
    Real "implode" "vz_inner" "0.0" (fun P => g_w (i_in (p_implode P)));
    Real "implode" "Bx_inner" "0.0" (fun P => g_bx (i_in (p_implode P)));
    Real "implode" "By_inner" "0.0" (fun P => g_by (i_in (p_implode P)));
    Real "implode" "Bz_inner" "0.0" (fun P => g_bz (i_in (p_implode P)));
    Int "implode" "shape_region" 0 (fun P => i_shape (p_implode P));
    Real "blast" "density_in" "1.0" (fun P => b_din (p_blast P));
    Real "blast" "density_out" "1.2" (fun P => b_dout (p_blast P));
    Real "blast" "pressure_in" "10.0" (fun P => b_pin (p_blast P));
    Real "blast" "pressure_out" "0.1" (fun P => b_pout (p_blast P));
    Real "blast" "bx_in" "0.5" (fun P => b_bxin (p_blast P));
    Real "blast" "bx_out" "0.5" (fun P => b_bxout (p_blast P));
    Real "KH" "d_in" "1.0" (fun P => k_din (p_kh P));
    Real "KH" "d_out" "1.0" (fun P => k_dout (p_kh P));
    Real "KH" "pressure" "10.0" (fun P => k_p (p_kh P));
    Flag "KH" "perturbation_sine" false (fun P => k_sine (p_kh P));
    Flag "KH" "perturbation_sine_robertson" true (fun P => k_rob (p_kh P));
    Flag "KH" "perturbation_rand" false (fun P => k_rand (p_kh P));
    Real "KH" "vflow_in" "-0.5" (fun P => k_vin (p_kh P));
    Real "KH" "vflow_out" "0.5" (fun P => k_vout (p_kh P));
    Real "KH" "amplitude" "0.1" (fun P => k_ampl (p_kh P));
    Real "Gresho" "rho0" "1.0" (fun P => gr_rho0 (p_gresho P));
    Real "Gresho" "Ma" "0.1" (fun P => gr_ma (p_gresho P));
    Real "riemann2d" "x" "0.8" (fun P => q_xt (p_quad P));
    Real "riemann2d" "y" "0.8" (fun P => q_yt (p_quad P));
    Real "riemann2d" "z" "0.8" (fun P => q_zt (p_quad P));
    Real "isentropic_vortex" "density_ambient" "1.0" (fun P => v_rho (p_vortex P));
    Real "isentropic_vortex" "temperature_ambient" "1.0" (fun P => v_T (p_vortex P));
    Real "isentropic_vortex" "vx_ambient" "1.0" (fun P => v_u (p_vortex P));
    Real "isentropic_vortex" "vy_ambient" "1.0" (fun P => v_v (p_vortex P));
    Real "isentropic_vortex" "strength" "5.0" (fun P => v_beta (p_vortex P));
    Real "rayleigh_taylor" "amplitude" "0.01" (fun P => r_ampl (p_rti P));
    Real "rayleigh_taylor" "d0" "1.0" (fun P => r_d0 (p_rti P));
    Real "rayleigh_taylor" "d1" "2.0" (fun P => r_d1 (p_rti P));
    Real "rayleigh_taylor" "gx" "0.0" (fun P => r_gx (p_rti P));
    Real "rayleigh_taylor" "gy" "-0.1" (fun P => r_gy (p_rti P));
    Real "rayleigh_taylor" "gz" "0.0" (fun P => r_gz (p_rti P));
    Real "brio-wu" "rhoL" "1.0" (fun P => w_rhoL (p_briowu P));
    Real "brio-wu" "pL" "1.0" (fun P => w_pL (p_briowu P));
    Real "brio-wu" "uL" "0.0" (fun P => w_uL (p_briowu P));
    Real "brio-wu" "ByL" "1.0" (fun P => w_ByL (p_briowu P));
    Real "brio-wu" "rhoR" "0.125" (fun P => w_rhoR (p_briowu P));
    Real "brio-wu" "pR" "0.1" (fun P => w_pR (p_briowu P));
    Real "brio-wu" "uR" "0.0" (fun P => w_uR (p_briowu P));
    Real "brio-wu" "ByR" "-1.0" (fun P => w_ByR (p_briowu P));
    Real "brio-wu" "Bx" "0.75" (fun P => w_Bx (p_briowu P));
    Int "brio-wu" "direction" 0 (fun P => w_dir (p_briowu P));
    Real "OrszagTang" "kt" "0.0" (fun P => o_kt (p_ot P));
    Int "OrszagTang" "vortex_dir" 2 (fun P => o_dir (p_ot P));
    Real "rotor" "r0" "0.1" (fun P => t_r0 (p_rotor P));
    Real "rotor" "r1" "0.115" (fun P => t_r1 (p_rotor P));
    Real "rotor" "u0" "2.0" (fun P => t_u0 (p_rotor P));
    Real "rotor" "p0" "1.0" (fun P => t_p0 (p_rotor P));
    Real "rotor" "b0" "1.41047395886939" (fun P => t_b0 (p_rotor P));
    Real "FieldLoop" "radius" "1.0" (fun P => f_radius (p_loop P));
    Real "FieldLoop" "density_in" "1.0" (fun P => f_din (p_loop P));
    Real "FieldLoop" "amplitude" "1.0" (fun P => f_ampl (p_loop P));
    Real "FieldLoop" "vflow" "1.0" (fun P => f_vflow (p_loop P)) ].

(** The place of the entry holds what the settings give. *)
Definition respected (cv : b32 -> T) (out : list (chars * chars * chars)) (P : problems T) (e : entry) : Prop :=
  match e with
  | Real s n dflt place => forall d x, as_real (lit dflt) = Some d -> gives as_real s n d out x -> place P = cv x
  | Int s n d place => forall x, gives as_int s n d out x -> place P = x
  | Flag s n d place => forall x, gives as_bool s n d out x -> place P = x
  end.
Definition key_of (e : entry) : chars * chars :=
  match e with Real s n _ _ | Int s n _ _ | Flag s n _ _ => (lit s, lit n) end.
Definition unchanged (P P' : problems T) (e : entry) : Prop :=
  match e with
  | Real _ _ _ place => place P = place P'
  | Int _ _ _ place => place P = place P'
  | Flag _ _ _ place => place P = place P'
  end.
End Documented.

Lemma real_entry {T} (cv : b32 -> T) out c s n text d :
  settings_of out c -> dotless (lit s) -> as_real (lit text) = Some d ->
  forall d' x, as_real (lit text) = Some d' -> gives as_real s n d' out x -> real cv c s n d = cv x.
Proof.
  intros Hc Hs Hd d' x Hd' Hx. rewrite Hd in Hd'; injection Hd' as <-.
  unfold real, flt. rewrite (real_gives out c s n d x Hs Hc Hx). reflexivity.
Qed.

Ltac dotless_ := apply not_in_eqb; reflexivity.

Theorem C56_own_keys : forall {T} (cv : b32 -> T) M states out c e,
  settings_of out c -> In e documented_params -> respected cv out (read_problems cv M c states) e.
Proof.
  intros T cv M states out c e Hc. unfold documented_params. cbn [In].
  intros H. repeat (destruct H as [<- | H]); try destruct H;
    unfold respected, read_problems, read_implode, read_blast, read_kh, read_gresho, read_quad, read_vortex, read_rti,
      read_briowu, read_ot, read_rotor, read_loop, flag;
    cbv beta zeta iota delta [p_implode p_blast p_kh p_gresho p_quad p_vortex p_rti p_briowu p_ot p_rotor p_loop
      i_out i_in i_shape g_rho g_p g_u g_v g_w g_bx g_by g_bz b_din b_dout b_pin b_pout b_bxin b_bxout
      k_din k_dout k_p k_sine k_rob k_rand k_vin k_vout k_ampl gr_rho0 gr_ma q_xt q_yt q_zt
      v_rho v_T v_u v_v v_beta r_ampl r_d0 r_d1 r_gx r_gy r_gz w_rhoL w_pL w_uL w_ByL w_rhoR w_pR w_uR w_ByR w_Bx w_dir
      o_kt o_dir t_r0 t_r1 t_u0 t_p0 t_b0 f_radius f_din f_ampl f_vflow].
  all: first
   [ eapply real_entry; [ exact Hc | dotless_ | vm_compute; reflexivity ]
   | intros x Hx; eapply int_gives; [ dotless_ | exact Hc | reflexivity | exact Hx ]
   | intros x Hx; eapply bool_gives; [ dotless_ | exact Hc | exact Hx ] ].
Qed.
Print Assumptions C56_own_keys.

(** Files that agree on the key of a parameter give the same parameter, whatever else they
    contain. *)
Definition same_setting (out out' : list (chars * chars * chars)) (k : chars * chars) : Prop :=
  forall v, latest (fst k) (snd k) out v <-> latest (fst k) (snd k) out' v.

Lemma unset_latest s n out v : unset s n out -> latest s n out v -> False.
Proof.
  intros U (b & sec & nm & a & -> & H1 & H2 & _). unfold unset in U. rewrite Forall_app in U. destruct U as [_ U].
  inversion U as [|? ? K _]; apply K; auto.
Qed.

Lemma same_gives {A} (read : chars -> option A) s n d out out' x :
  same_setting out out' (lit s, lit n) -> gives read s n d out x -> gives read s n d out' x.
Proof.
  intros S [v y Hv Hr | v Hv Hr | Hu].
  - eapply gives_own; [ apply S; exact Hv | exact Hr ].
  - eapply gives_unreadable; [ apply S; exact Hv | exact Hr ].
  - destruct (latest_or_unset (lit s) (lit n) out') as [(v & Hv) | U]; [| apply gives_default; exact U ].
    exfalso; apply S in Hv; exact (unset_latest _ _ _ _ Hu Hv).
Qed.

Theorem C56_other_keys_do_not_matter : forall {T} (cv : b32 -> T) M M' states states' out out' c c' e,
  settings_of out c -> settings_of out' c' -> In e documented_params ->
  same_setting out out' (key_of e) ->
  unchanged (read_problems cv M c states) (read_problems cv M' c' states') e.
Proof.
  intros T cv M M' states states' out out' c c' e Hc Hc' Hin S.
  assert (R := C56_own_keys cv M states out c e Hc Hin). assert (R' := C56_own_keys cv M' states' out' c' e Hc' Hin).
  destruct e as [s n dflt place | s n d place | s n d place]; cbn in *.
  - assert (D : exists d, as_real (lit dflt) = Some d).
    { clear - Hin. unfold documented_params in Hin; cbn [In] in Hin.
      repeat (destruct Hin as [E | Hin]; [ try discriminate E; injection E as _ _ <- _; vm_compute; eexists; reflexivity |]).
      destruct Hin. }
    destruct D as (d & Hd). destruct (gives_some as_real s n d out) as (x & Hx).
    rewrite (R d x Hd Hx), (R' d x Hd (same_gives _ _ _ _ _ _ _ S Hx)). reflexivity.
  - destruct (gives_some as_int s n d out) as (x & Hx).
    rewrite (R x Hx), (R' x (same_gives _ _ _ _ _ _ _ S Hx)). reflexivity.
  - destruct (gives_some as_bool s n d out) as (x & Hx).
    rewrite (R x Hx), (R' x (same_gives _ _ _ _ _ _ _ S Hx)). reflexivity.
Qed.
Print Assumptions C56_other_keys_do_not_matter.

(** Keys that are read only with a sine perturbation. *)
Theorem C56_sine_keys : forall {T} (cv : b32 -> T) M states out c sine rob,
  settings_of out c -> gives as_bool "KH" "perturbation_sine" false out sine ->
  gives as_bool "KH" "perturbation_sine_robertson" true out rob ->
  let P := p_kh (read_problems cv M c states) in
  (sine = true \/ rob = true ->
     (forall x, gives as_int "KH" "mode" 2 out x -> k_mode P = x) /\
     (forall d x, as_real (lit "0.1") = Some d -> gives as_real "KH" "w0" d out x -> k_w0 P = cv x) /\
     (forall d x, as_real (lit "0.03") = Some d -> gives as_real "KH" "delta" d out x -> k_delta P = cv x)) /\
  (sine = false -> rob = false -> k_mode P = j_mode M /\ k_w0 P = j_w0 M /\ k_delta P = j_delta M).
Proof.
  intros T cv M states out c sine rob Hc Hs Hr.
  apply (bool_gives out c) in Hs; [| dotless_ | exact Hc ]. apply (bool_gives out c) in Hr; [| dotless_ | exact Hc ].
  unfold read_problems, read_kh, flag; cbv zeta. rewrite Hs, Hr.
  cbv beta iota delta [p_kh k_mode k_w0 k_delta].
  split; intros H.
  - assert (E : (rob || sine)%bool = true) by (apply orb_true_iff; tauto).
    rewrite E. split; [| split ].
    + intros x Hx; eapply int_gives; [ dotless_ | exact Hc | reflexivity | exact Hx ].
    + eapply real_entry; [ exact Hc | dotless_ | vm_compute; reflexivity ].
    + eapply real_entry; [ exact Hc | dotless_ | vm_compute; reflexivity ].
  - intros ->; rewrite H; cbn [orb]. repeat split.
Qed.
Print Assumptions C56_sine_keys.

(** Centres: without a key of their own they are half way between the bounds of the domain
    (the nearest float, whenever the sum of the bounds is a double). *)
Definition zero32 : b32 := S754_zero false.
Definition one32 : b32 := S754_finite false 8388608 (-23).
Definition centred {T} : list (string * string * string * string * (problems T -> T)) :=
  [ ("blast", "center_x", "xmin", "xmax", fun P => b_cx (p_blast P));
    ("blast", "center_y", "ymin", "ymax", fun P => b_cy (p_blast P));
    ("blast", "center_z", "zmin", "zmax", fun P => b_cz (p_blast P));
    ("isentropic_vortex", "center_x", "xmin", "xmax", fun P => v_x (p_vortex P));
    ("isentropic_vortex", "center_y", "ymin", "ymax", fun P => v_y (p_vortex P)) ]%string.

Lemma bound_gives out c k d x : settings_of out c ->
  gives as_real "mesh" k d out x -> flt c "mesh" k d = x.
Proof. intros Hc Hx. unfold flt. eapply real_gives; [ dotless_ | exact Hc | exact Hx ]. Qed.

Lemma gives_valid s n d out x : valid32 d -> gives as_real s n d out x -> valid32 x.
Proof. intros Hd [v y _ H | v _ _ | _]; [| exact Hd | exact Hd ]. exact (strtof_valid _ _ H). Qed.

Lemma dflt0 : dflt 0 1 = zero32. Proof. reflexivity. Qed.
Lemma dflt1 : dflt 1 1 = one32. Proof. reflexivity. Qed.

Theorem C56_centres : exists half : b32 -> b32 -> b32,
  (forall lo hi, valid32 lo -> valid32 hi -> is_finite_SF lo = true -> is_finite_SF hi = true ->
     format64 (real_of lo + real_of hi) -> is_float_of ((real_of lo + real_of hi) / 2) (half lo hi)) /\
  forall T (cv : b32 -> T) M states out c s n klo khi place lo hi x,
  settings_of out c -> In (s, n, klo, khi, place) centred ->
  gives as_real "mesh" klo zero32 out lo -> gives as_real "mesh" khi one32 out hi ->
  valid32 lo /\ valid32 hi /\
  (gives as_real s n (half lo hi) out x -> place (read_problems cv M c states) = cv x).
Proof.
  exists (fun lo hi => narrow (mid lo hi)). split; [ exact mid_near |].
  intros T cv M states out c s n klo khi place lo hi x Hc Hin Hlo Hhi.
  split; [ eapply gives_valid; [| exact Hlo ]; reflexivity |].
  split; [ eapply gives_valid; [| exact Hhi ]; reflexivity |]. intros Hx.
  assert (El := bound_gives out c klo zero32 lo Hc Hlo). assert (Eh := bound_gives out c khi one32 hi Hc Hhi).
  unfold centred in Hin; cbn [In] in Hin.
  repeat (destruct Hin as [E | Hin]); try destruct Hin; injection E as <- <- <- <- <-;
    unfold read_problems, read_blast, read_vortex, lower, upper; cbv zeta;
    cbv beta iota delta [p_blast p_vortex b_cx b_cy b_cz v_x v_y];
    rewrite dflt0, dflt1, El, Eh; unfold real, flt; f_equal;
    (eapply real_gives; [ dotless_ | exact Hc | exact Hx ]).
Qed.
Print Assumptions C56_centres.

(** The place of the Brio-Wu discontinuity: half way along the axis of its direction. *)
Theorem C56_brio_wu_place : exists half : b32 -> b32 -> b32,
  (forall lo hi, valid32 lo -> valid32 hi -> is_finite_SF lo = true -> is_finite_SF hi = true ->
     format32 (real_of lo + real_of hi) -> (Rabs (real_of lo + real_of hi) < bpow radix2 128)%R ->
     is_float_of ((real_of lo + real_of hi) / 2) (half lo hi)) /\
  forall T (cv : b32 -> T) M states out c dir lo hi x, settings_of out c ->
  gives as_int "brio-wu" "direction" 0 out dir ->
  let axis := if dir =? 0 then ("xmin", "xmax")%string else if dir =? 1 then ("ymin", "ymax")%string else ("zmin", "zmax")%string in
  gives as_real "mesh" (fst axis) zero32 out lo -> gives as_real "mesh" (snd axis) one32 out hi ->
  gives as_real "brio-wu" "xd" (half lo hi) out x ->
  w_xd (p_briowu (read_problems cv M c states)) = cv x.
Proof.
  exists (fun lo hi => narrow (mid_f lo hi)). split; [ exact mid_f_near |].
  intros T cv M states out c dir lo hi x Hc Hd axis Hlo Hhi Hx.
  apply (int_gives out c) in Hd; [| dotless_ | exact Hc | reflexivity ].
  assert (El := bound_gives out c _ zero32 lo Hc Hlo). assert (Eh := bound_gives out c _ one32 hi Hc Hhi).
  unfold read_problems, read_briowu, lower, upper; cbv zeta. cbv beta iota delta [p_briowu w_xd].
  rewrite Hd, dflt0, dflt1. subst axis. destruct (dir =? 0), (dir =? 1); cbn [fst snd] in El, Eh;
    rewrite El, Eh; unfold real, flt; f_equal; (eapply real_gives; [ dotless_ | exact Hc | exact Hx ]).
Qed.
Print Assumptions C56_brio_wu_place.

(** The radius of the blast: its own key, otherwise a number that depends on xmin and xmax only. *)
Theorem C56_blast_radius : exists tenth : b32 -> b32 -> b32, tenth zero32 one32 = S754_finite false 13421773 (-28) /\
  forall T (cv : b32 -> T) M states out c lo hi x, settings_of out c ->
  gives as_real "mesh" "xmin" zero32 out lo -> gives as_real "mesh" "xmax" one32 out hi ->
  gives as_real "blast" "radius" (tenth lo hi) out x ->
  b_radius (p_blast (read_problems cv M c states)) = cv x.
Proof.
  exists (fun lo hi => narrow (SFdiv 53 1024 (mid lo hi) (b64_Z 10))). split; [ vm_compute; reflexivity |].
  intros T cv M states out c lo hi x Hc Hlo Hhi Hx.
  assert (El := bound_gives out c _ zero32 lo Hc Hlo). assert (Eh := bound_gives out c _ one32 hi Hc Hhi).
  unfold read_problems, read_blast, lower, upper; cbv zeta. cbv beta iota delta [p_blast b_radius].
  rewrite dflt0, dflt1, El, Eh. unfold real, flt. f_equal. eapply real_gives; [ dotless_ | exact Hc | exact Hx ].
Qed.
Print Assumptions C56_blast_radius.

(** *** Where the claim fails *)

(** That number is half the sum of the bounds divided by ten, not a tenth of the width: on a
    domain centred at the origin the default blast has radius zero. *)
Lemma sum_opposite (x : b32) : valid32 x -> is_finite_SF x = true -> exists s, SFadd 53 1024 (widen x) (widen (SFopp x)) = S754_zero s.
Proof.
  intros V F. assert (V' : valid32 (SFopp x)) by (destruct x; exact V).
  assert (F' : is_finite_SF (SFopp x) = true) by (destruct x; exact F).
  destruct (widen_b x V F) as (b & E & Fb & Rb). destruct (widen_b (SFopp x) V' F') as (b' & E' & Fb' & Rb').
  rewrite E, E', (add_sf 53 1024 p53 e53).
  assert (R0 : (B2R b + B2R b' = 0)%R).
  { rewrite Rb, Rb'. destruct x as [s|s| |s m e]; try discriminate F; unfold real_of; cbn [SF2R SFopp].
    - lra.
    - unfold F2R; cbn [Defs.Fnum Fexp]. destruct s; cbn [negb SpecFloat.cond_Zopp]; [ rewrite <- (opp_IZR (Zpos m)) || idtac | ];
        change (Z.opp (Zpos m)) with (Zneg m); replace (IZR (Zneg m)) with (- IZR (Zpos m))%R by (rewrite <- opp_IZR; reflexivity); ring. }
  assert (K := Bplus_correct 53 1024 p53 e53 mode_NE b b' Fb Fb').
  rewrite R0, round_0, Rabs_R0, Rlt_bool_true in K by (apply bpow_gt_0 || auto with typeclass_instances).
  destruct K as (K1 & K2 & _). destruct (Bplus mode_NE b b') as [s|s| |s m e H]; try discriminate K2.
  - exists s; reflexivity.
  - exfalso. cbn in K1. apply eq_0_F2R in K1. destruct s; discriminate K1.
Qed.

Theorem C56_blast_radius_refuted : forall T (cv : b32 -> T) M states out c lo, settings_of out c ->
  gives as_real "mesh" "xmin" zero32 out lo -> gives as_real "mesh" "xmax" one32 out (SFopp lo) ->
  is_finite_SF lo = true -> unset (lit "blast") (lit "radius") out ->
  exists s, b_radius (p_blast (read_problems cv M c states)) = cv (S754_zero s).
Proof.
  intros T cv M states out c lo Hc Hlo Hhi F U.
  assert (V : valid32 lo) by (eapply gives_valid; [| exact Hlo ]; reflexivity).
  assert (El := bound_gives out c _ zero32 lo Hc Hlo). assert (Eh := bound_gives out c _ one32 _ Hc Hhi).
  destruct (sum_opposite lo V F) as (s & Es). exists s.
  unfold read_problems, read_blast, lower, upper; cbv zeta. cbv beta iota delta [p_blast b_radius].
  rewrite dflt0, dflt1, El, Eh. unfold real, flt. f_equal.
  rewrite (real_gives out c "blast" "radius" _ _ ltac:(dotless_) Hc (gives_default _ _ _ _ _ U)).
  unfold mid. rewrite Es. destruct s; vm_compute; reflexivity.
Qed.
Print Assumptions C56_blast_radius_refuted.

(** Blast: the key of by is ignored, the key of bz sets by, and bz is never assigned. *)
Theorem C56_blast_field_refuted : forall T (cv : b32 -> T) M states out c, settings_of out c ->
  let P := p_blast (read_problems cv M c states) in
  (forall d x, as_real (lit "0.5") = Some d -> gives as_real "blast" "bz_in" d out x -> b_byin P = cv x) /\
  (forall d x, as_real (lit "0.5") = Some d -> gives as_real "blast" "bz_out" d out x -> b_byout P = cv x) /\
  b_bzin P = j_bzin M /\ b_bzout P = j_bzout M.
Proof.
  intros T cv M states out c Hc. unfold read_problems, read_blast; cbv zeta.
  cbv beta iota delta [p_blast b_byin b_byout b_bzin b_bzout].
  split; [| split; [| split; reflexivity ]]; (eapply real_entry; [ exact Hc | dotless_ | vm_compute; reflexivity ]).
Qed.
Print Assumptions C56_blast_field_refuted.

(** A file that the theorems apply to. *)
Definition ex_blast : chars := lit "[blast]" ++ nl ++ lit "by_in=0.25" ++ nl ++ lit "radius=0.125" ++ nl.
Example C56_case : exists out, settings_of out (serial_parameters (Some ex_blast)) /\
  latest (lit "blast") (lit "by_in") out (lit "0.25") /\ latest (lit "Blast") (lit "radius") out (lit "0.125") /\
  unset (lit "blast") (lit "bz_in") out /\ unset (lit "mesh") (lit "xmin") out /\
  let P := p_blast (read_problems (fun x => x) (mkmemory b32 zero32 one32 7 zero32 zero32)
                      (serial_parameters (Some ex_blast)) (fun _ _ => mkhs zero32 zero32 zero32 zero32 zero32)) in
  b_radius P = S754_finite false 8388608 (-26) /\ b_byin P = S754_finite false 8388608 (-24) /\ b_bzout P = one32 /\
  b_cx P = S754_finite false 8388608 (-24).
Proof.
  exists [(lit "blast", lit "by_in", lit "0.25"); (lit "blast", lit "radius", lit "0.125")].
  assert (L : lines_of ex_blast [lit "[blast]"; lit "by_in=0.25"; lit "radius=0.125"]).
  { split; [| left; reflexivity ]. repeat constructor; apply not_in_eqb; reflexivity. }
  assert (N : forall a b a' b', text_eqb (make_key (lit a) (lit b)) (make_key (lit a') (lit b')) = false ->
     ~ (same (lit a) (lit a') /\ same (lit b) (lit b'))).
  { intros a b a' b' E [H1 H2]. rewrite (make_key_congr _ _ _ _ H1 H2) in E.
    assert (X : text_eqb (make_key (lit a') (lit b')) (make_key (lit a') (lit b')) = true) by (apply text_eqb_eq; reflexivity). congruence. }
  split; [| split; [| split; [| split; [| split ]]]].
  - exists ex_blast, [lit "[blast]"; lit "by_in=0.25"; lit "radius=0.125"], None.
    split; [ apply not_in_eqb; reflexivity |]. split.
    { apply obtains_serial. intros t ls Et Hl. injection Et as <-.
      rewrite <- (buffer_lines_spec ex_blast ls Hl).
      rewrite (buffer_lines_spec ex_blast _ L). repeat constructor. }
    split; [ exact L |]. split.
    + eapply (means_section _ _ _ _ _ _ _ (lit "blast")).
      { apply (reads_section false [] (lit "blast") []); [ split; [ constructor | discriminate ] | apply not_in_eqb; reflexivity | apply solid_uncommented; reflexivity ]. }
      assert (R : forall p n v, forallb (fun x => negb (isspace x)) n = true -> forallb (fun x => negb (isspace x)) v = true ->
         forallb (fun x => negb (Ascii.eqb "=" x)) n = true -> n <> [] ->
         (forall x t, n = x :: t -> ~ opening x /\ x <> "["%char) -> reads p (n ++ "="%char :: v) (Setting n v)).
      { intros p n v H1 H2 H3 H4 H5.
        replace (n ++ "="%char :: v) with ([] ++ n ++ [] ++ "="%char :: [] ++ v ++ []) by (cbn; rewrite app_nil_r; reflexivity).
        apply (reads_setting p [] n [] [] v []).
        - split; [ constructor | reflexivity ].
        - apply solid_trimmed; exact H1.
        - constructor.
        - apply not_in_eqb; exact H3.
        - apply solid_uncommented; exact H1.
        - exact H5.
        - intros; contradiction.
        - constructor.
        - apply solid_trimmed; exact H2.
        - apply solid_uncommented; exact H2.
        - left; constructor. }
      assert (O : forall c n, Ascii.eqb ";" c = false -> Ascii.eqb "#" c = false -> Ascii.eqb "[" c = false ->
         forall x t, c :: n = x :: t -> ~ opening x /\ x <> "["%char).
      { intros c n E1 E2 E3 x t E; injection E as <- _. apply Ascii.eqb_neq in E1, E2, E3. unfold opening. split; [ intros [-> | ->] |]; congruence. }
      eapply means_setting; [ apply (R _ (lit "by_in") (lit "0.25")); try reflexivity; try discriminate; apply O; reflexivity |].
      eapply means_setting; [ apply (R _ (lit "radius") (lit "0.125")); try reflexivity; try discriminate; apply O; reflexivity |].
      apply means_end.
    + repeat constructor; apply not_in_eqb; reflexivity.
  - exists [], (lit "blast"), (lit "by_in"), [(lit "blast", lit "radius", lit "0.125")].
    repeat split; try apply same_refl. constructor; [ apply N; reflexivity | constructor ].
  - exists [(lit "blast", lit "by_in", lit "0.25")], (lit "blast"), (lit "radius"), [].
    split; [ reflexivity |]. split; [ apply lower_same; reflexivity |]. split; [ apply lower_same; reflexivity | constructor ].
  - repeat constructor; apply N; reflexivity.
  - repeat constructor; apply N; reflexivity.
  - repeat split; vm_compute; reflexivity.
Qed.
