(** The thread list after the freeze. *)
From Verif Require Export LifeFiniMain.

Local Open Scope nat_scope.

Lemma later_reach dyn ok s s' : reach dyn ok s -> later dyn ok s s' -> reach dyn ok s'.
Proof. intros R L. induction L; [exact R|]. eapply reach_step; eauto. Qed.

Lemma freeze_keep dyn s t c s' : step dyn s t c = Some s' -> forall e, In e (s_tr s) -> In e (s_tr s').
Proof.
  intros HS e I. apply step_view in HS. destruct HS as (_ & _ & V).
  destruct V as [| | | | | | |f r x Hst Hun Hbar Hfs Es']; subst; cbn; auto.
  rewrite apply_tr. apply in_or_app; auto.
Qed.

Lemma later_in dyn ok s s' : later dyn ok s s' -> forall e, In e (s_tr s) -> In e (s_tr s').
Proof. intros L. induction L; auto. intros e I. eapply freeze_keep; eauto. Qed.

Lemma list_frozen dyn s t c s' w : reach dyn orderly s -> orderly s t c -> step dyn s t c = Some s' ->
  In (EFreeze w) (s_tr s) ->
  g_list (s_g s') = g_list (s_g s) \/
  (~ In MAIN_TN (g_list (s_g s)) /\ g_list (s_g s') = MAIN_TN :: g_list (s_g s)).
Proof.
  intros R HO HS FR. pose proof (freeze_flag _ _ (orderly_any _ _ R) w FR) as IE.
  apply step_view in HS. destruct HS as (_ & LV & V).
  destruct V as [| | | | | | |f r e Hst Hun Hbar Hfs Es']; subst; auto. rewrite apply_g.
  assert (IN : In f (th_stack (s_th s t))) by (rewrite Hst; now left).
  destruct (exit_frames _ _ (orderly_any _ _ R) t f IN) as [EF _].
  destruct (exit_grow _ _ _ _ _ _ _ R HO Hst Hfs IE) as (G & _ & _).
  destruct (list_local _ _ _ _ _ _ _ _ _ Hfs) as (_ & [L|[(n & -> & L)|[(n & -> & L)|[(old & -> & _ & L)|L]]]] & _); auto.
  - rewrite (EF eq_refl) in IE. discriminate.
  - rewrite (EF eq_refl) in IE. discriminate.
  - right. split; [|exact L]. intros I. destruct (nodes_reach _ _ (orderly_clean _ _ R)) as (_ & MO & _).
    destruct (MO I) as [_ Z]. specialize (Z t). rewrite Hst in Z. cbn in Z. lia.
  - left. rewrite L in *. destruct (g_list (s_g s)) as [|n l]; [reflexivity|]. destruct (G n). now left.
Qed.

Lemma list_later dyn s s' w : reach dyn orderly s -> In (EFreeze w) (s_tr s) -> later dyn orderly s s' ->
  g_list (s_g s') = g_list (s_g s) \/
  (~ In MAIN_TN (g_list (s_g s)) /\ g_list (s_g s') = MAIN_TN :: g_list (s_g s)).
Proof.
  intros R FR L. induction L as [|s1 t c s2 L IH HO HS]; [now left|].
  pose proof (later_reach _ _ _ _ R L) as R1. pose proof (later_in _ _ _ _ L _ FR) as F1.
  destruct (list_frozen _ _ _ _ _ _ R1 HO HS F1) as [E|[E1 E2]].
  - rewrite E. exact IH.
  - destruct IH as [X|[X1 X2]].
    + rewrite X in E1, E2. now right.
    + rewrite X2 in E1. destruct E1. now left.
Qed.

(** ** Executable form of [fini_safe] *)

Local Open Scope Z_scope.
Definition safe_b (s : state) (t : Z) (c : choice) : bool :=
  orderly_b s t c &&
  match th_stack (s_th s t) with
  | f :: _ => negb (in_window f) || match c with CStep => true | _ => false end
  | [] => true
  end.
Lemma safe_b_ok s t c : safe_b s t c = true -> fini_safe s t c.
Proof.
  unfold safe_b. intros H. apply andb_prop in H. destruct H as [A B]. split; [now apply orderly_b_ok|].
  unfold set_at_once. destruct (th_stack (s_th s t)) as [|f r]; [exact I|]. intros W. rewrite W in B. now destruct c.
Qed.
Lemma safe_run dyn l s : run_ok safe_b dyn init l = Some s -> reach dyn fini_safe s.
Proof. intros H. eapply run_ok_reach; [exact safe_b_ok|apply reach_init|exact H]. Qed.

(** From a state on. *)
Fixpoint later_ok (b : state -> Z -> choice -> bool) (dyn : bool) (s : state) (l : list (Z * choice)) : option state :=
  match l with
  | [] => Some s
  | (t, c) :: r => if b s t c then match step dyn s t c with Some s' => later_ok b dyn s' r | None => None end else None
  end.
Lemma later_run dyn l : forall s s1 s2, later dyn orderly s s1 -> later_ok orderly_b dyn s1 l = Some s2 -> later dyn orderly s s2.
Proof.
  induction l as [|(t, c) r IH]; cbn; intros s s1 s2 L E.
  - inversion E; subst; exact L.
  - destruct (orderly_b s1 t c) eqn:B; [|discriminate]. destruct (step dyn s1 t c) eqn:S; [|discriminate].
    eapply IH; [|exact E]. eapply later_step; eauto. now apply orderly_b_ok.
Qed.
