(** The data of the process: what init_process returns. *)
From Verif Require Export LifeBelong LifeProcSpec.

Local Open Scope Z_scope.

(** The last return of init_process in this process image: the thread, the value and
    whether the thread did something since. *)
Fixpoint proc (tr : list event) : option (Z * Z * bool) :=
  match tr with
  | [] => None
  | e :: r =>
      match e with
      | ERet w (CbInitProcess _) v => Some (w, v, false)
      | EFork _ => None
      | _ => match proc r with
             | Some (w, v, b) => Some (w, v, (actor e =? w) || b)
             | None => None
             end
      end
  end.

Definition quiet (e : event) : Prop := is_init_ret e = false /\ is_fork e = false.

Lemma proc_cons e tr : quiet e -> proc (e :: tr) =
  match proc tr with Some (w, v, b) => Some (w, v, (actor e =? w) || b) | None => None end.
Proof.
  intros [A B]. destruct e; cbn in A, B; try discriminate; try reflexivity.
  match goal with c : cb |- _ => destruct c; cbn in A; try discriminate; reflexivity end.
Qed.

Lemma proc_app ev tr : (forall e, In e ev -> quiet e) -> proc (ev ++ tr) =
  match proc tr with
  | Some (w, v, b) => Some (w, v, existsb (fun e => actor e =? w) ev || b)
  | None => None
  end.
Proof.
  induction ev as [|e ev IH]; intros Q; [cbn; destruct (proc tr) as [[[w v] b]|]; reflexivity|].
  cbn [app]. rewrite proc_cons by (apply Q; now left). rewrite IH by (intros x X; apply Q; now right).
  destruct (proc tr) as [[[w v] b]|]; [cbn; now rewrite orb_assoc|reflexivity].
Qed.

(** Frames between the test of monitor_init_process_called and the storing. *)
Definition initing (f : frame) : bool :=
  match f with
  | FBPReset _ | FBPLib _ | FBPDone _ | FBPInit _ | FBPStore _ | FCb _ KInitProcess => true
  | _ => false
  end.

Definition cb_ok (f : frame) : Prop :=
  match f with
  | FCb c k => (exists d, c = CbInitProcess d) <-> k = KInitProcess
  | _ => True
  end.

Lemma cb_reach dyn ok s : reach dyn ok s -> fr_inv (fun _ _ _ => cb_ok) s.
Proof.
  apply fr_reach.
  - intros t f I. cbn in I. rewrite upd_if in I. destruct (Z.eqb t MAIN); cbn in I;
      repeat (destruct I as [<-|I]; [exact Logic.I|]); destruct I.
  - auto.
  - intros g tr t f I. cbn in I. repeat (destruct I as [<-|I]; [exact Logic.I|]); destruct I.
  - intros g tr t n f _ _. exact Logic.I.
  - clear s. intros s t c f r e R HI HO Hst LV H. split; [|split; [auto|]].
    + assert (HQ : cb_ok f) by (apply (HI t); rewrite Hst; now left). clear - H HQ. intros f' I. fs_cases H; brk H; inversion H; subst; clear H; cbn [e_fr] in I;
        try (unfold resume in I); repeat match type of I with context [match ?x with _ => _ end] => destruct x end; cbn in I;
        repeat (destruct I as [<-|I]; [cbn; try exact HQ; try (split; [intros (? & X); congruence|intros X; try discriminate X; eauto])|]); try (destruct I; fail); try exact HQ; auto.
    + clear - H. intros st f' E I. fs_cases H; brk H; inversion H; subst; clear H; cbn [e_new] in E; try discriminate E;
        inversion E; subst; cbn in I; repeat (destruct I as [<-|I]; [exact Logic.I|]); destruct I.
Qed.

Lemma init_local dyn t u g tsd nc f c e : frame_step dyn t u g tsd nc f c = Some e ->
  existsb initing (e_fr e) = true -> initing f = true \/
     (exists d, f = FBPCas d false /\ g_initp g = false) \/ (exists d, f = FBPCas d true).
Proof.
  intros H. fs_cases H; brk H; inversion H; subst; clear H; cbn; auto;
    unfold resume; g_brk; cbn; intros; try discriminate; eauto 6.
Qed.

Lemma new_local dyn t u g tsd nc f c e st f' : frame_step dyn t u g tsd nc f c = Some e ->
  e_new e = Some st -> In f' st -> initing f' = false /\ resetting f' = false.
Proof.
  intros H. fs_cases H; brk H; inversion H; subst; clear H; cbn [e_new]; intros X I; try discriminate X;
    inversion X; subst; cbn in I; repeat (destruct I as [<-|I]; [split; reflexivity|]); destruct I.
Qed.

Lemma initp_local dyn t u g tsd nc f c e : frame_step dyn t u g tsd nc f c = Some e ->
  g_initp (e_g e) = false -> g_initp g = false /\ forall d b, f <> FBPCas d b.
Proof.
  intros H. fs_cases H; brk H; inversion H; subst; clear H; cbn [e_g]; unfold reset_list; cbn; try g_brk; cbn; intros;
    try discriminate; split; auto; discriminate.
Qed.

Lemma reset_local dyn t u g tsd nc f c e : frame_step dyn t u g tsd nc f c = Some e ->
  (existsb resetting (e_fr e) = true -> e_child e = true \/ resetting f = true) /\
  (resetting f = true -> e_child e = false /\ e_ev e = []).
Proof.
  intros H. fs_cases H; brk H; inversion H; subst; clear H; cbn; unfold resume; g_brk; cbn;
    split; intros; try discriminate; auto.
Qed.

Lemma store_local dyn t u g tsd nc f c e v : frame_step dyn t u g tsd nc f c = Some e ->
  In (FBPStore v) (e_fr e) -> exists x, f = FCb x KInitProcess /\ e_ev e = [ERet t x v] /\ e_fr e = [FBPStore v].
Proof.
  intros H. fs_cases H; brk H; inversion H; subst; clear H; cbn [e_fr e_ev]; unfold resume; g_brk; cbn; intros I;
    repeat (destruct I as [I|I]; [try discriminate I; inversion I; subst; eauto|]); try (destruct I; fail).
Qed.

Lemma ret_local dyn t u g tsd nc f c e w x v : frame_step dyn t u g tsd nc f c = Some e ->
  In (ERet w (CbInitProcess x) v) (e_ev e) ->
  exists k, f = FCb (CbInitProcess x) k /\ e_ev e = [ERet t (CbInitProcess x) v] /\ e_fr e = resume k v /\ e_g e = g /\ e_child e = false.
Proof.
  intros H I. fs_cases H; brk H; inversion H; subst; clear H; cbn in I;
    repeat match type of I with context [if ?b then _ else _] => destruct b; cbn in I end;
    repeat (destruct I as [I|I]; [try discriminate I; inversion I; subst; cbn; eauto 8|]); try (destruct I; fail).
Qed.

Lemma data_local dyn t u g tsd nc f c e : frame_step dyn t u g tsd nc f c = Some e ->
  n_data (nd (e_g e) MAIN_TN) = n_data (nd g MAIN_TN) \/
  (exists v, f = FBPStore v /\ n_data (nd (e_g e) MAIN_TN) = v) \/
  resetting f = true \/ holds MAIN_TN f = true.
Proof.
  intros H.
  fs_cases H; brk H; inversion H; subst; clear H; cbn [e_g]; auto;
    unfold nd; cbn; try g_brk; cbn; rewrite ?upd_if; auto;
    repeat match goal with |- context [Z.eqb ?a ?b] => destruct (Z.eqb_spec a b); subst end;
    cbn; auto; eauto 10.
Qed.
