(** * Facts about the building blocks of the MHD kernels *)
From Coq Require Import ZArith List Bool Lia ZifyBool Permutation.
Import ListNotations.
From Verif Require Import Num Exec ExecFacts Grid GridFacts HydroNum Kernels KernelFacts Atomics
  Hydro2D Hydro2DFacts MhdNum Mhd2D.
Local Open Scope Z_scope.

Section Blocks.
Context {T : Type} `{N : Num T}.
Implicit Types s : store T.

Definition mvars : list Z := [ID; IP; IU; IV; IW; IA; IB; IC].

Lemma in_mvars v : In v mvars <-> 0 <= v < 8.
Proof. unfold mvars, ID, IP, IU, IV, IW, IA, IB, IC. simpl. lia. Qed.

Lemma foot_rdm (R W At : loc -> Prop) (L : Z -> loc) (k : ms T -> prog T) :
  (forall v, 0 <= v < 8 -> R (L v)) -> (forall q, foot R W At (k q)) -> foot R W At (rdm L k).
Proof.
  intros HR Hk. simpl.
  repeat (split; [apply HR; unfold ID, IP, IU, IV, IW, IA, IB, IC; lia|intro]). apply Hk.
Qed.

Lemma foot_wrm (R W At : loc -> Prop) (L : Z -> loc) q (k : prog T) :
  (forall v, 0 <= v < 8 -> W (L v)) -> foot R W At k -> foot R W At (wrm L q k).
Proof.
  intros HW Hk. simpl.
  repeat (split; [apply HW; unfold ID, IP, IU, IV, IW, IA, IB, IC; lia|]). apply Hk.
Qed.

Lemma foot_rdb (R W At : loc -> Prop) (L : Z -> loc) (k : bf T -> prog T) :
  (forall v, 0 <= v < 8 -> R (L v)) -> (forall q, foot R W At (k q)) -> foot R W At (rdb L k).
Proof.
  intros HR Hk. simpl. repeat (split; [apply HR; unfold IA, IB, IC; lia|intro]). apply Hk.
Qed.

Lemma foot_rds {X V} (R W At : loc -> Prop) (rd : X -> (V -> prog T) -> prog T) l : forall k,
  (forall c, In c l -> forall k, (forall x, foot R W At (k x)) -> foot R W At (rd c k)) ->
  (forall xs, foot R W At (k xs)) -> foot R W At (rds rd l k).
Proof.
  induction l as [|c l IH]; intros k Hr Hk; simpl; auto.
  apply Hr; [simpl; auto|]. intros x. apply IH; auto. intros c' Hc. apply Hr. simpl; auto.
Qed.

Lemma foot_matomics (R W At : loc -> Prop) op vars dst val (k : prog T) :
  (forall v, In v vars -> At (dst v)) -> foot R W At k -> foot R W At (matomics op vars dst val k).
Proof. intros Hv Hk. induction vars as [|v vs IH]; simpl in *; auto. Qed.

Definition getm s (L : Z -> loc) : ms T :=
  mkms (s (L ID)) (s (L IP)) (s (L IU)) (s (L IV)) (s (L IW)) (s (L IA)) (s (L IB)) (s (L IC)).
Definition getb s (L : Z -> loc) : bf T := mkbf (s (L IA)) (s (L IB)) (s (L IC)).
Definition putm s (L : Z -> loc) (q : ms T) : store T :=
  upd (upd (upd (upd (upd (upd (upd (upd s (L ID) (md q)) (L IP) (mp q)) (L IU) (mu q)) (L IV) (mv q))
    (L IW) (mw q)) (L IA) (ma q)) (L IB) (mb q)) (L IC) (mc q).

Lemma run_rdm L k s : run (rdm L k) s = run (k (getm s L)) s.
Proof. reflexivity. Qed.
Lemma run_rdb L k s : run (rdb L k) s = run (k (getb s L)) s.
Proof. reflexivity. Qed.
Lemma run_wrm L q k s : run (wrm L q k) s = run k (putm s L q).
Proof. reflexivity. Qed.
Lemma effects_rdm L (k : ms T -> prog T) s : effects (rdm L k) s = effects (k (getm s L)) s.
Proof. reflexivity. Qed.
Lemma effects_rdb L (k : bf T -> prog T) s : effects (rdb L k) s = effects (k (getb s L)) s.
Proof. reflexivity. Qed.

Lemma run_rds {X V} (rd : X -> (V -> prog T) -> prog T) (get : X -> V) s l : forall k,
  (forall c k, run (rd c k) s = run (k (get c)) s) ->
  run (rds rd l k) s = run (k (map get l)) s.
Proof.
  induction l as [|c l IH]; intros k Hr; simpl; auto. rewrite Hr, IH; auto.
Qed.

Lemma effects_matomics op vars dst (val : ms T) k s :
  effects (matomics op vars dst val k) s =
  map (fun v => (dst v, fun x => op x (mget val v))) vars ++ effects k s.
Proof. induction vars; simpl; auto. f_equal. auto. Qed.

Lemma eight v : 0 <= v < 8 -> v = 0 \/ v = 1 \/ v = 2 \/ v = 3 \/ v = 4 \/ v = 5 \/ v = 6 \/ v = 7.
Proof. lia. Qed.

Lemma putm_other s L q l : (forall v, 0 <= v < 8 -> L v <> l) -> putm s L q l = s l.
Proof.
  intros Hl. unfold putm.
  rewrite !upd_other; auto; apply Hl; unfold ID, IP, IU, IV, IW, IA, IB, IC; lia.
Qed.

Lemma putm_same s L q v : (forall v1 v2, L v1 = L v2 -> v1 = v2) -> 0 <= v < 8 ->
  putm s L q (L v) = mget q v.
Proof.
  intros Hi Hv. unfold putm.
  destruct (eight v Hv) as [->|[->|[->|[->|[->|[->|[->| ->]]]]]]];
  repeat (first [rewrite upd_same | rewrite upd_other by (intros E; apply Hi in E; cbv in E; discriminate)]);
  reflexivity.
Qed.

Lemma mget_getm s L v : 0 <= v < 8 -> mget (getm s L) v = s (L v).
Proof.
  intros Hv. destruct (eight v Hv) as [->|[->|[->|[->|[->|[->|[->| ->]]]]]]]; reflexivity.
Qed.

Lemma getm_eq s L q : (forall v, 0 <= v < 8 -> s (L v) = mget q v) -> getm s L = q.
Proof.
  intros Hv. destruct q. unfold getm. rewrite !Hv by (unfold ID, IP, IU, IV, IW, IA, IB, IC; lia).
  reflexivity.
Qed.

Lemma getm_ext s1 s2 L1 L2 : (forall v, 0 <= v < 8 -> s1 (L1 v) = s2 (L2 v)) -> getm s1 L1 = getm s2 L2.
Proof. intros Hv. unfold getm. rewrite !Hv by (unfold ID, IP, IU, IV, IW, IA, IB, IC; lia). reflexivity. Qed.

Lemma getm_putm s L q : (forall v1 v2, L v1 = L v2 -> v1 = v2) -> getm (putm s L q) L = q.
Proof. intros Hi. apply getm_eq. intros. apply putm_same; auto. Qed.

Lemma mget_ext (q1 q2 : ms T) : (forall v, 0 <= v < 8 -> mget q1 v = mget q2 v) -> q1 = q2.
Proof.
  intros Hv. destruct q1, q2.
  f_equal; [apply (Hv 0)|apply (Hv 1)|apply (Hv 2)|apply (Hv 3)|apply (Hv 4)|apply (Hv 5)|apply (Hv 6)|apply (Hv 7)]; lia.
Qed.

Lemma mget_mscale (q : ms T) c v : 0 <= v < 8 -> mget (mscale q c) v = nmul (mget q v) c.
Proof.
  intros Hv. destruct (eight v Hv) as [->|[->|[->|[->|[->|[->|[->| ->]]]]]]]; reflexivity.
Qed.

Lemma swap_xy_twice (q : ms T) : swap_xy (swap_xy q) = q.
Proof. destruct q; reflexivity. Qed.

End Blocks.

(** Footprint goals of MHD items. *)
Ltac footsm_step :=
  match goal with
  | |- foot _ _ _ Done => exact Logic.I
  | |- foot _ _ _ (rdm _ _) => apply foot_rdm
  | |- foot _ _ _ (rdb _ _) => apply foot_rdb
  | |- foot _ _ _ (wrm _ _ _) => apply foot_wrm
  | |- foot _ _ _ (rds _ _ _) => apply foot_rds
  | |- foot _ _ _ (matomics _ _ _ _ _) => apply foot_matomics
  | |- foot _ _ _ (copy_n _ _ _ _) => apply foot_copy_n
  | |- foot _ _ _ (Rd _ _) => split
  | |- foot _ _ _ (Wr _ _ _) => split
  | |- foot _ _ _ (Upd _ _ _) => split
  | |- forall _, foot _ _ _ _ => intro
  end.
