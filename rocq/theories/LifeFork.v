(** The forked child: its exit callbacks are its own. *)
From Verif Require Export LifeExit LifeLib LifeBcast.

Local Open Scope nat_scope.

(** Frames of the thread that runs the exit callbacks, up to the freeze. *)
Definition exiting (f : frame) : bool :=
  match f with
  | FEPWin _ _ | FEPBegin _ | FEPFini _ | FSUsed | FSLock _ | FSSet _ => true
  | FCb _ (KBeginExit _) => true
  | _ => false
  end.
Definition exit_ev (e : event) : bool :=
  match e with
  | EWin _ | EFreeze _ | ECall _ (CbBeginExit _) | ECall _ (CbFiniProcess _ _)
  | ERet _ (CbFiniProcess _ _) _ => true
  | _ => false
  end.

Lemma exiting_local dyn t u g tsd nc f c e : frame_step dyn t u g tsd nc f c = Some e ->
  (g_cookie g = true -> g_cookie (e_g e) = true) /\
  (forall f', In f' (e_fr e) -> exiting f' = true -> exiting f = true \/ g_cookie (e_g e) = true) /\
  (forall st f', e_new e = Some st -> In f' st -> exiting f' = false) /\
  (g_inexit (e_g e) = true -> g_inexit g = true \/ exiting f = true) /\
  (forall x, In x (e_ev e) -> exit_ev x = true -> exiting f = true \/ g_cookie (e_g e) = true \/
     exists how d v, x = ERet t (CbFiniProcess how d) v).
Proof.
  assert (T : g_cookie (reset_list tsd g) = g_cookie g /\ g_inexit (reset_list tsd g) = g_inexit g).
  { unfold reset_list. destruct (g_used g); destruct (get_tn g tsd); try destruct (Z.eqb z MAIN_TN); auto. }
  destruct T as [T1 T2].
  intros H. repeat split.
  - fs_cases H; brk H; inversion H; subst; clear H; cbn; g_brk; cbn; rewrite ?T1; auto.
  - intros f' I E. fs_cases H; brk H; inversion H; subst; clear H; cbn in I |- *; g_brk; cbn; auto;
      repeat match type of I with context [if ?b then _ else _] => destruct b; cbn in I end;
      repeat (destruct I as [<-|I]; [try discriminate E; auto|]); try (destruct I; fail).
  - intros st f' EN I. fs_cases H; brk H; inversion H; subst; clear H; cbn in EN; try discriminate EN; inversion EN; subst;
      cbn in I; repeat (destruct I as [<-|I]; [reflexivity|]); destruct I.
  - fs_cases H; brk H; inversion H; subst; clear H; cbn; g_brk; cbn; rewrite ?T2; auto; congruence.
  - intros x I E. fs_cases H; brk H; inversion H; subst; clear H; cbn in I |- *; g_brk; cbn; auto;
      repeat match type of I with context [if ?b then _ else _] => destruct b; cbn in I end;
      repeat (destruct I as [<-|I]; [try discriminate E; auto|]); try (destruct I; fail).
    all: try (match goal with |- context [ERet _ ?k _] => destruct k; try discriminate E; right; right; eauto end).
Qed.

Definition Qexit (g : glob) (tr : list event) (t : Z) (f : frame) : Prop := exiting f = true -> g_cookie g = true.
Lemma exiting_reach dyn s : reach dyn any s -> fr_inv Qexit s.
Proof.
  apply fr_reach.
  - intros t f I E. cbn in I. rewrite upd_if in I. destruct (Z.eqb t MAIN); [|destruct I].
    cbn in I. repeat (destruct I as [<-|I]; [discriminate E|]). destruct I.
  - auto.
  - intros g tr t f I E. cbn in I. repeat (destruct I as [<-|I]; [discriminate E|]). destruct I.
  - intros g tr t n f _ _ E. discriminate E.
  - clear s. intros s t c f r e R FI _ Hst LV Hfs.
    assert (IN : In f (th_stack (s_th s t))) by (rewrite Hst; now left).
    destruct (exiting_local _ _ _ _ _ _ _ _ _ Hfs) as (A & B & C & _). split; [|split].
    + intros f' I' E. destruct (B f' I' E) as [X|X]; [|exact X]. apply A. exact (FI t f IN X).
    + intros t' f' _ Q E. apply A. auto.
    + intros st f' EN I' E. rewrite (C st f' EN I') in E. discriminate E.
Qed.

Definition began_inv (s : state) : Prop :=
  (g_inexit (s_g s) = true -> g_cookie (s_g s) = true) /\
  (forall x, In x (s_tr s) -> exit_ev x = true -> g_cookie (s_g s) = true).
Lemma began_reach dyn s : reach dyn any s -> began_inv s.
Proof.
  apply (reach_invariant dyn any began_inv).
  - split; [discriminate|intros x []].
  - clear s. intros s t c s' R [H1 H2] HO HS. pose proof HS as HS0. apply step_view in HS. destruct HS as (_ & LV & V).
    destruct V as [| | | | | | |f r e Hst Hun Hbar Hfs Es']; subst; unfold began_inv, add_ev; cbn [set_th s_tr s_g app];
      try (split; [exact H1|first [exact H2|intros x [<-|I] E; [discriminate E|eauto]]]).
    rewrite apply_g, apply_tr. assert (IN : In f (th_stack (s_th s t))) by (rewrite Hst; now left).
    pose proof (exiting_reach _ _ R t f IN) as Q. unfold Qexit in Q.
    destruct (exiting_local _ _ _ _ _ _ _ _ _ Hfs) as (A & B & C & D & E). split.
    + intros X. apply A. destruct (D X); auto.
    + intros x I X. apply in_app_or in I. destruct I as [I|I]; [|apply A; eauto].
      destruct (E x I X) as [Y|[Y|(how & d & v & ->)]]; auto.
      assert (R' : reach dyn any (apply_eff s t (s_th s t) r e)) by (eapply reach_step; eauto).
      pose proof (finished_cookie _ _ R') as F. rewrite apply_g in F. apply F. left. rewrite apply_tr. exists t, how, d, v. apply in_or_app; auto.
Qed.

(** Under early forks, no exit event precedes a fork. *)
Definition Jfork (tr : list event) (e : event) : Prop :=
  match e with EFork _ => forall x, In x tr -> exit_ev x = false | _ => True end.
Lemma fork_hist dyn s : reach dyn early_forks s -> hist Jfork (s_tr s).
Proof.
  apply hist_reach; try (intros; exact I).
  clear s. intros s t c f r e R HI HO Hst LV Hfs.
  assert (RA : reach dyn any s) by (eapply reach_weaken; [|exact R]; intros; exact I).
  destruct (e_child e) eqn:HC.
  - destruct (child_shape _ _ _ _ _ _ _ _ _ Hfs HC) as (-> & _ & _ & _ & -> & _). cbn. split; [|exact I].
    intros x IX. destruct (exit_ev x) eqn:X; [|reflexivity].
    pose proof (proj2 (began_reach _ _ RA) x IX X) as Y. rewrite (HO eq_refl) in Y. discriminate Y.
  - pose proof (no_fork_ev _ _ _ _ _ _ _ _ _ Hfs HC) as N. revert N. generalize (s_tr s). clear.
    induction (e_ev e) as [|x l IH]; intros tr N; [exact I|]. cbn in N. apply orb_false_elim in N. destruct N as [N1 N2].
    split; [|auto]. destruct x; try exact I. discriminate N1.
Qed.

Lemma in_image x tr : exit_ev x = true -> In x tr -> In x (image tr) \/ exists a t b, tr = a ++ EFork t :: b /\ In x b.
Proof.
  intros EX. induction tr as [|e r IH]; [intros []|]. intros [->|I].
  - left. destruct x; try (now left). discriminate EX.
  - destruct (IH I) as [X|(a & t & b & -> & X)].
    + destruct e; try (left; right; exact X). right. exists [], t, r. auto.
    + right. exists (e :: a), t, b. auto.
Qed.

Lemma exit_own dyn s a b x : reach dyn early_forks s -> s_tr s = a ++ b -> In x b -> exit_ev x = true -> In x (image b).
Proof.
  intros R E I X. destruct (in_image x b X I) as [Y|(a' & t & b' & -> & Y)]; [exact Y|exfalso].
  rewrite app_assoc in E. pose proof (fork_hist _ _ R _ _ _ E) as J. cbn in J. rewrite (J x Y) in X. discriminate X.
Qed.

(** ** A process run by one thread *)

(** Thread t, live, with these frames, thread-specific data and cancel state. *)
Record config := mkcfg { k_st : list frame; k_g : glob; k_tsd : option Z; k_nc : bool; k_tr : list event }.
Definition at_cfg (s : state) (t : Z) (k : config) : Prop :=
  th_live (s_th s t) = true /\ th_stack (s_th s t) = k_st k /\ s_g s = k_g k /\ th_tsd (s_th s t) = k_tsd k /\
  th_nc (s_th s t) = k_nc k /\ s_tr s = k_tr k.
Definition solo1 (dyn : bool) (t : Z) (k : config) (c : choice) : option config :=
  if g_dead (k_g k) then None else
  match c with
  | CSignal | CFatal | CShoot | CSync | CCancel | CChild => None
  | _ =>
    match k_st k with
    | [] => None
    | f :: r =>
        if is_unwind f then None else if barred c (f :: r) then None else
        match frame_step dyn t 0 (k_g k) (k_tsd k) (k_nc k) f c with
        | Some e => match e_new e, e_kill e, e_child e with
                    | None, None, false => Some (mkcfg (e_fr e ++ r) (e_g e) (e_tsd e) (e_nc e) (e_ev e ++ k_tr k))
                    | _, _, _ => None
                    end
        | None => None
        end
    end
  end.
Fixpoint solo (dyn : bool) (t : Z) (k : config) (l : list choice) : option config :=
  match l with
  | [] => Some k
  | c :: r => match solo1 dyn t k c with Some k' => solo dyn t k' r | None => None end
  end.

(** The id of the next thread matters only to a step that makes a thread. *)
Lemma next_only dyn t u g tsd nc f c e : frame_step dyn t 0 g tsd nc f c = Some e -> e_new e = None ->
  frame_step dyn t u g tsd nc f c = Some e.
Proof.
  intros H N. destruct c; try exact H; try discriminate H; destruct f; try exact H; try discriminate H.
  - cbn in H. inversion H; subst. discriminate N.
  - cbn in H. inversion H; subst. discriminate N.
Qed.

Lemma solo1_step dyn s t k c k' : at_cfg s t k -> solo1 dyn t k c = Some k' ->
  exists s', step dyn s t c = Some s' /\ at_cfg s' t k' /\ s_next s' = s_next s /\ (forall u, u <> t -> s_th s' u = s_th s u).
Proof.
  intros (L & ST & G & T & N & TR) H. unfold solo1 in H. destruct (g_dead (k_g k)) eqn:D; [discriminate H|].
  assert (X : match k_st k with
    | [] => None
    | f :: r =>
        if is_unwind f then None else if barred c (f :: r) then None else
        match frame_step dyn t 0 (k_g k) (k_tsd k) (k_nc k) f c with
        | Some e => match e_new e, e_kill e, e_child e with
                    | None, None, false => Some (mkcfg (e_fr e ++ r) (e_g e) (e_tsd e) (e_nc e) (e_ev e ++ k_tr k))
                    | _, _, _ => None
                    end
        | None => None
        end
    end = Some k' /\ (forall x, step dyn s t c = match th_stack (s_th s t) with
      | [] => x
      | f :: rest =>
          if is_unwind f
          then match c with
               | CStep => if existsb locked rest then None
                          else Some (set_th s t (with_stack (s_th s t) (unwind rest)))
               | _ => None
               end
          else if barred c (f :: rest) then None
          else option_map (apply_eff s t (s_th s t) rest)
                 (frame_step dyn t (s_next s) (s_g s) (th_tsd (s_th s t)) (th_nc (s_th s t)) f c) end \/ k_st k = [])).
  { split; [destruct c; try discriminate H; exact H|]. intros x. unfold step. rewrite G, D, L. cbn [orb negb].
    destruct c; try discriminate H; (destruct (k_st k) as [|f r] eqn:K; [now right|left; rewrite ST; reflexivity]). }
  clear H. destruct X as [H Y]. destruct (k_st k) as [|f r] eqn:K; [discriminate H|].
  destruct (Y None) as [Z|Z]; [|discriminate Z]. clear Y. rewrite ST in Z.
  destruct (is_unwind f); [discriminate H|]. destruct (barred c (f :: r)); [discriminate H|].
  destruct (frame_step dyn t 0 (k_g k) (k_tsd k) (k_nc k) f c) as [e|] eqn:F; [|discriminate H].
  destruct (e_new e) eqn:EN; [discriminate H|]. destruct (e_kill e) eqn:EK; [discriminate H|]. destruct (e_child e) eqn:EC; [discriminate H|].
  inversion H; subst k'; clear H. rewrite G, T, N, (next_only _ _ (s_next s) _ _ _ _ _ _ F EN) in Z. cbn in Z.
  eexists. split; [exact Z|]. unfold apply_eff, at_cfg. rewrite EN, EK, EC. cbn. rewrite upd_same. cbn. rewrite TR.
  repeat split; auto. intros u U. now rewrite upd_other.
Qed.

Lemma solo_run dyn t l : forall s k k', at_cfg s t k -> solo dyn t k l = Some k' ->
  exists s', run dyn s (map (fun c => (t, c)) l) = Some s' /\ at_cfg s' t k' /\ s_next s' = s_next s /\ (forall u, u <> t -> s_th s' u = s_th s u).
Proof.
  induction l as [|c r IH]; intros s k k' A H; cbn in H.
  - inversion H; subst. exists s. cbn. auto.
  - destruct (solo1 dyn t k c) as [k1|] eqn:E; [|discriminate H].
    destruct (solo1_step _ _ _ _ _ _ A E) as (s1 & S1 & A1 & N1 & U1).
    destruct (IH _ _ _ A1 H) as (s2 & S2 & A2 & N2 & U2).
    exists s2. cbn. rewrite S1. split; [exact S2|]. split; [exact A2|]. split; [congruence|]. intros u U. rewrite U2, U1; auto.
Qed.

Lemma fork_step dyn s t d r : g_dead (s_g s) = false -> th_live (s_th s t) = true -> th_stack (s_th s t) = FForkGo d :: r ->
  exists s', step dyn s t CChild = Some s' /\
    at_cfg s' t (mkcfg (FBPCas d true :: FForkRet :: r) (s_g s) (th_tsd (s_th s t)) (th_nc (s_th s t)) (EFork t :: s_tr s)) /\
    s_next s' = s_next s /\ (forall u, u <> t -> th_live (s_th s' u) = false).
Proof.
  intros D L ST. unfold step. rewrite D, L, ST. cbn. eexists. split; [reflexivity|].
  unfold apply_eff, at_cfg. cbn. rewrite upd_same. cbn. repeat split; auto. intros u U. now rewrite upd_other.
Qed.

(** Which steps the child takes. *)
Definition child_in (v : Z) : list choice := repeat CStep 6 ++ [CRet v] ++ repeat CStep 2.
Definition child_out (lib : bool) (b x : Z) : list choice :=
  [CCall AExit] ++ repeat CStep 4 ++ [CRet b] ++ repeat CStep 2 ++ [CRet x] ++ repeat CStep 2 ++ [CRet 0%Z] ++
  if lib then repeat CStep 3 ++ [CRet 0%Z] ++ repeat CStep 2 else repeat CStep 2.

Lemma solo_app dyn t l1 l2 k k1 : solo dyn t k l1 = Some k1 -> solo dyn t k (l1 ++ l2) = solo dyn t k1 l2.
Proof.
  revert k. induction l1 as [|c r IH]; intros k H; cbn in *; [now inversion H|].
  destruct (solo1 dyn t k c); [auto|discriminate H].
Qed.

Lemma reset_facts tsd g : g_dead (reset_list tsd g) = g_dead g /\ g_used (reset_list tsd g) = false /\ g_libonce (reset_list tsd g) = g_libonce g /\
  g_cookie (reset_list tsd g) = g_cookie g /\ g_dtor (reset_list tsd g) = g_dtor g /\ g_lock (reset_list tsd g) = g_lock g /\
  g_inexit (reset_list tsd g) = g_inexit g /\ g_calls (reset_list tsd g) = g_calls g /\ g_support (reset_list tsd g) = g_support g /\
  g_initp (reset_list tsd g) = g_initp g.
Proof.
  unfold reset_list. destruct (g_used g) eqn:U; [|repeat split; auto].
  destruct (get_tn g tsd); try destruct (Z.eqb z MAIN_TN); repeat split; auto.
Qed.

Lemma child_solo dyn t d v f r g tsd nc tr : open f = true -> g_dead g = false -> g_libonce g = true ->
  exists g' tsd', solo dyn t (mkcfg (FBPCas d true :: FForkRet :: f :: r) g tsd nc tr) (child_in v) =
    Some (mkcfg (f :: r) g' tsd' nc ([EForkRet t; ERet t (CbInitProcess d) v; ECall t (CbInitProcess d)] ++ tr)) /\
    g_dead g' = false /\ g_used g' = false /\ g_cookie g' = g_cookie g /\ g_libdone g' = false /\ g_dtor g' = g_dtor g /\
    n_data (nd g' MAIN_TN) = v /\ g_lock g' = g_lock g /\ g_inexit g' = g_inexit g /\ g_calls g' = g_calls g /\ g_initp g' = true /\
    g_support g' = g_support g /\ n_ignore (nd g' MAIN_TN) = n_ignore (nd (reset_list tsd g) MAIN_TN) /\
    n_magic (nd g' MAIN_TN) = n_magic (nd (reset_list tsd g) MAIN_TN).
Proof.
  intros O D LO. unfold child_in. change (repeat CStep 6) with ([CStep; CStep] ++ repeat CStep 4). rewrite <- app_assoc.
  assert (E1 : solo dyn t (mkcfg (FBPCas d true :: FForkRet :: f :: r) g tsd nc tr) [CStep; CStep] =
    Some (mkcfg (FBPLib d :: FForkRet :: f :: r) (set_node MAIN_TN (set_n_data d) (reset_list tsd (set_g_initp true g)))
      (if g_used g then None else tsd) nc tr)).
  { cbn. unfold solo1. cbn. rewrite D. cbn. rewrite D. reflexivity. }
  rewrite (solo_app _ _ _ _ _ _ E1). clear E1.
  assert (HI : n_ignore (nd (reset_list tsd (set_g_initp true g)) MAIN_TN) = n_ignore (nd (reset_list tsd g) MAIN_TN) /\
    n_magic (nd (reset_list tsd (set_g_initp true g)) MAIN_TN) = n_magic (nd (reset_list tsd g) MAIN_TN)).
  { unfold reset_list. cbn. change (get_tn (set_g_initp true g) tsd) with (get_tn g tsd).
    destruct (g_used g); [|split; reflexivity]. destruct (get_tn g tsd); [|split; reflexivity]. destruct (z =? MAIN_TN)%Z; split; reflexivity. }
  destruct HI as [HI HJ]. rewrite <- HI, <- HJ. clear HI HJ.
  destruct (reset_facts tsd (set_g_initp true g)) as (F1 & F2 & F3 & F4 & F5 & F6 & F7 & F8 & F9 & F10). cbn in F1, F3, F4, F5, F6, F7, F8, F9, F10.
  rewrite <- F4, <- F5, <- F6, <- F7, <- F8, <- F9. rewrite D in F1. rewrite LO in F3. clear D LO.
  generalize dependent (reset_list tsd (set_g_initp true g)). intros h F1 F2 F3 _ _ _ _ _ _ F10. generalize (if g_used g then None else tsd). intros tsd'.
  destruct h as [heap lst fre chunk pos chunks num inexit used support ftdone shoot lck initp libonce cookie pdone libdone dtor mti calls bad dead].
  cbn in F1, F2, F3, F10. subst.
  eexists. eexists. split; [vm_compute; reflexivity|]. vm_compute. auto 20.
Qed.

Lemma exit_solo dyn t b x f r g tsd nc tr : open f = true -> g_dead g = false -> g_used g = false -> g_cookie g = false -> g_libdone g = false ->
  exists g' tsd', solo dyn t (mkcfg (f :: r) g tsd nc tr) (child_out (dyn && negb (g_dtor g)) b x) =
    Some (mkcfg (f :: r) g' tsd' nc ([EDead t] ++ (if dyn && negb (g_dtor g) then [ERet t CbFiniLibrary 0; ECall t CbFiniLibrary] else []) ++
      [EPast t; ERet t (CbFiniProcess EXIT_NORMAL (n_data (nd g MAIN_TN))) x; ECall t (CbFiniProcess EXIT_NORMAL (n_data (nd g MAIN_TN)));
       ERet t (CbBeginExit EXIT_NORMAL) b; ECall t (CbBeginExit EXIT_NORMAL); EWin t; EExit t EXIT_NORMAL] ++ tr)) /\
    g_dead g' = true.
Proof.
  intros O D U C LD. destruct g as [heap lst fre chunk pos chunks num inexit used support ftdone shoot lck initp libonce cookie pdone libdone dtor mti calls bad dead].
  cbn in D, U, C, LD. subst. cbn [g_dtor].
  destruct f; try discriminate O; destruct dyn, dtor; cbn [andb negb];
    (eexists; eexists; split; [vm_compute; reflexivity|reflexivity]).
Qed.

(** A new thread is made. *)
Definition making_in (sup : bool) (st ar ra d : Z) : list choice :=
  [CCall (ACreate st ar ra)] ++ repeat CStep 5 ++ (if sup then [] else [CStep; CStep; CRet 0%Z]) ++ [CStep; CRet d] ++
  repeat CStep 9 ++ [CRet 0%Z].

Lemma create_solo dyn t st ar ra d f r g tsd nc tr : open f = true -> existsb handling (f :: r) = false -> g_dead g = false -> g_used g = false ->
  g_lock g = None -> g_initp g = true -> n_magic (nd g MAIN_TN) = true -> n_ignore (nd g MAIN_TN) = false -> d <> IGNORE_NEW_THREAD ->
  exists g' ev, solo dyn t (mkcfg (f :: r) g tsd nc tr) (making_in (g_support g) st ar ra d) =
    Some (mkcfg (FPCReal (mkcreq (g_calls g) st ar ra) (Some MAIN_TN) (array_node (g_chunk g) 0) :: f :: r) g' (Some MAIN_TN) nc (ev ++ tr)) /\
    existsb is_fork ev = false /\
    g_dead g' = false /\ g_lock g' = None /\ g_inexit g' = g_inexit g /\ g_list g' = [] /\ g_num g' = g_num g /\
    nd g' (array_node (g_chunk g) 0) = set_n_data d (set_n_arg ar (set_n_start st node_made)).
Proof.
  intros O NH D U L IP M NI ND. apply Z.eqb_neq in ND. set (q := mkcreq (g_calls g) st ar ra).
  set (g1 := set_g_calls (g_calls g + 1) (set_g_mti (upd (g_mti g) (g_calls g) (st, ra)) g)).
  set (g2 := set_node MAIN_TN (set_n_info (Some (g_calls g))) (list_init t g1)).
  assert (GT : get_tn (list_init t g1) (Some MAIN_TN) = Some MAIN_TN).
  { unfold get_tn, nd. cbn. unfold nd in M. now rewrite M. }
  assert (E1 : solo dyn t (mkcfg (f :: r) g tsd nc tr) [CCall (ACreate st ar ra); CStep; CStep] =
    Some (mkcfg (FBPCas 0 false :: FPCIgn q (Some MAIN_TN) :: f :: r) g2 (Some MAIN_TN) nc ([ECreateCall t q] ++ tr))).
  { unfold solo. unfold solo1 at 1. cbn [k_g k_st]. rewrite D. unfold barred. rewrite NH.
    assert (UF : is_unwind f = false) by (destruct f; try discriminate O; reflexivity). rewrite UF.
    assert (FS : frame_step dyn t 0 g tsd nc f (CCall (ACreate st ar ra)) =
      Some (mkeff g1 [FPCInit q; f] tsd nc [ECreateCall t q] None None false)).
    { destruct f; try discriminate O; reflexivity. }
    cbn [k_tsd k_nc]. rewrite FS. cbn [e_new e_kill e_child e_fr e_g e_tsd e_nc e_ev app k_tr].
    unfold solo1 at 1. cbn [k_g k_st k_tsd k_nc k_tr is_unwind barred].
    replace (g_dead g1) with false by (symmetry; exact D).
    assert (FS2 : frame_step dyn t 0 g1 tsd nc (FPCInit q) CStep =
      Some (mkeff (list_init t g1) [FPCInfo q] (Some MAIN_TN) nc [] None None false)).
    { cbn. now rewrite U. }
    rewrite FS2. cbn [e_new e_kill e_child e_fr e_g e_tsd e_nc e_ev app].
    unfold solo1. cbn [k_g k_st k_tsd k_nc k_tr is_unwind barred].
    replace (g_dead (list_init t g1)) with false by (symmetry; exact D).
    assert (FS3 : frame_step dyn t 0 (list_init t g1) (Some MAIN_TN) nc (FPCInfo q) CStep =
      Some (mkeff g2 [FBPCas 0 false; FPCIgn q (Some MAIN_TN)] (Some MAIN_TN) nc [] None None false)).
    { unfold frame_step, auto_step. rewrite GT. reflexivity. }
    rewrite FS3. reflexivity. }
  assert (E2 : solo dyn t (mkcfg (FBPCas 0 false :: FPCIgn q (Some MAIN_TN) :: f :: r) g2 (Some MAIN_TN) nc ([ECreateCall t q] ++ tr)) [CStep; CStep] =
    Some (mkcfg (FPCSup q (Some MAIN_TN) :: f :: r) (set_g_initp true g2) (Some MAIN_TN) nc ([ECreateCall t q] ++ tr))).
  { unfold solo, solo1. cbn [k_g k_st k_tsd k_nc k_tr is_unwind barred].
    replace (g_dead g2) with false by (symmetry; exact D).
    assert (FS : frame_step dyn t 0 g2 (Some MAIN_TN) nc (FBPCas 0 false) CStep =
      Some (mkeff (set_g_initp true g2) [] (Some MAIN_TN) nc [] None None false)).
    { cbn. now rewrite IP. }
    rewrite FS. cbn [e_new e_kill e_child e_fr e_g e_tsd e_nc e_ev app k_g k_st k_tsd k_nc k_tr is_unwind barred].
    replace (g_dead (set_g_initp true g2)) with false by (symmetry; exact D).
    assert (FS2 : frame_step dyn t 0 (set_g_initp true g2) (Some MAIN_TN) nc (FPCIgn q (Some MAIN_TN)) CStep =
      Some (mkeff (set_g_initp true g2) [FPCSup q (Some MAIN_TN)] (Some MAIN_TN) nc [] None None false)).
    { assert (X : n_ignore (nd (set_g_initp true g2) MAIN_TN) = false) by exact NI. unfold frame_step, auto_step. rewrite X. reflexivity. }
    rewrite FS2. reflexivity. }
  unfold making_in. change (repeat CStep 5) with ([CStep; CStep] ++ [CStep; CStep] ++ [CStep]).
  rewrite <- !app_assoc. rewrite !app_assoc. rewrite <- app_assoc. 
  rewrite <- !app_assoc.
  match goal with |- context [solo dyn t _ ([CCall (ACreate st ar ra)] ++ [CStep; CStep] ++ ?x)] =>
    change ([CCall (ACreate st ar ra)] ++ [CStep; CStep] ++ x) with ([CCall (ACreate st ar ra); CStep; CStep] ++ x) end.
  rewrite (solo_app _ _ _ _ _ _ E1). rewrite (solo_app _ _ _ _ _ _ E2). clear E1 E2 GT.
  assert (A1 : g_dead (set_g_initp true g2) = false) by exact D. assert (A2 : g_lock (set_g_initp true g2) = None) by exact L.
  assert (A3 : g_free (set_g_initp true g2) = []) by reflexivity. assert (A4 : g_pos (set_g_initp true g2) = 0%Z) by reflexivity.
  assert (A5 : g_support (set_g_initp true g2) = g_support g) by reflexivity. assert (A6 : g_chunk (set_g_initp true g2) = g_chunk g) by reflexivity.
  assert (A7 : g_inexit (set_g_initp true g2) = g_inexit g) by reflexivity. assert (A8 : g_num (set_g_initp true g2) = g_num g) by reflexivity.
  assert (A9 : g_list (set_g_initp true g2) = []) by reflexivity.
  rewrite <- A5, <- A6, <- A7, <- A8. clear A5 A6 A7 A8. generalize dependent (set_g_initp true g2). intros h A1 A2 A3 A4 A9.
  clear - A1 A2 A3 A4 A9 ND.
  destruct h as [heap lst fre chunk pos chunks num inexit used support ftdone shoot lck initp libonce cookie pdone libdone dtor mti calls bad dead].
  cbn in A1, A2, A3, A4, A9. subst. cbn [g_support g_chunk g_inexit g_num].
  set (k1 := fun sup ev => mkcfg (FPCGot q (Some MAIN_TN) d :: f :: r)
    (mkglob heap [] [] chunk 0 chunks num inexit used sup ftdone shoot None initp libonce cookie pdone libdone dtor mti calls bad false)
    (Some MAIN_TN) nc (ev ++ [ECreateCall t q] ++ tr)).
  assert (E3 : exists ev sup, solo dyn t
    (mkcfg (FPCSup q (Some MAIN_TN) :: f :: r)
      (mkglob heap [] [] chunk 0 chunks num inexit used support ftdone shoot None initp libonce cookie pdone libdone dtor mti calls bad false)
      (Some MAIN_TN) nc ([ECreateCall t q] ++ tr)) ([CStep] ++ (if support then [] else [CStep; CStep; CRet 0%Z]) ++ [CStep; CRet d]) = Some (k1 sup ev) /\
    existsb is_fork ev = false).
  { destruct support.
    - exists [ERet t (CbPreCreate (q_id q)) d; ECall t (CbPreCreate (q_id q))], true. split; [vm_compute; reflexivity|reflexivity].
    - exists [ERet t (CbPreCreate (q_id q)) d; ECall t (CbPreCreate (q_id q)); ERet t (plain_cb PThreadSupport) 0; ECall t (plain_cb PThreadSupport)], true.
      split; [vm_compute; reflexivity|reflexivity]. }
  destruct E3 as (ev & sup & E3 & NF).
  match goal with |- context [solo dyn t ?k ?l] =>
    replace l with (([CStep] ++ (if support then [] else [CStep; CStep; CRet 0%Z]) ++ [CStep; CRet d]) ++ [CStep] ++ repeat CStep 8 ++ [CRet 0%Z])
      by (destruct support; reflexivity) end.
  rewrite (solo_app _ _ _ _ _ _ E3). clear E3.
  set (k2 := mkcfg (FPCLock q (Some MAIN_TN) d :: f :: r)
    (mkglob heap [] [] chunk 0 chunks num inexit used sup ftdone shoot None initp libonce cookie pdone libdone dtor mti calls bad false)
    (Some MAIN_TN) nc (ev ++ [ECreateCall t q] ++ tr)).
  assert (E4 : solo dyn t (k1 sup ev) [CStep] = Some k2).
  { unfold solo, solo1, k1. cbn. rewrite ND. reflexivity. }
  rewrite (solo_app _ _ _ _ _ _ E4). clear E4.
  assert (QE : q_arg q = ar /\ q_start q = st) by (split; reflexivity). clearbody q.
  exists (set_node (array_node chunk 0) (fun x => set_n_data d (set_n_arg (q_arg q) (set_n_start (q_start q) x)))
    (set_node (array_node chunk 0) (fun _ => node_made)
      (mkglob heap [] [] chunk 1 chunks num inexit used sup ftdone shoot None initp libonce cookie pdone libdone dtor mti calls bad false))).
  exists ([ERet t (plain_cb PResetStack) 0; ECall t (plain_cb PResetStack)] ++ ev ++ [ECreateCall t q]).
  split; [unfold k2; rewrite <- !app_assoc; cbn [app]; generalize (ev ++ ECreateCall t q :: tr); intros tr0; vm_compute; reflexivity|].
  split; [rewrite !existsb_app, NF; reflexivity|]. do 5 (split; [reflexivity|]).
  destruct QE as [<- <-]. unfold nd, set_node at 1. cbn [g_heap set_g_heap]. rewrite upd_same.
  unfold nd, set_node. cbn [g_heap set_g_heap]. rewrite upd_same. reflexivity.
Qed.

Lemma thread_solo dyn u n g tsd nc tr d : g_dead g = false -> g_lock g = None -> g_inexit g = false -> g_list g = [] -> n_data (nd g n) = d ->
  exists g' tsd', solo dyn u (mkcfg [FBT BTSelf n; FApp AppTsd] g tsd nc tr) (repeat CStep 9) =
    Some (mkcfg [FCb (CbInitThread (g_num g + 1) d) (KInitThread n); FApp AppTsd] g' tsd' nc
      ([ECall u (CbInitThread (g_num g + 1) d); EReg u (g_num g + 1)] ++ tr)).
Proof.
  intros D L X G E. destruct g as [heap lst fre chunk pos chunks num inexit used support ftdone shoot lck initp libonce cookie pdone libdone dtor mti calls bad dead].
  cbn in D, L, X, G. subst. cbn [g_num].
  set (g := mkglob heap [] fre chunk pos chunks num false used support ftdone shoot None initp libonce cookie pdone libdone dtor mti calls bad false) in *.
  set (g2 := set_g_lock None (set_g_list [n] (set_node n (set_n_num (num + 1)) (set_g_num (num + 1) (set_g_lock (Some u)
    (set_node n (fun x => set_n_bottom u (set_n_self u x)) g)))))).
  assert (E1 : solo dyn u (mkcfg [FBT BTSelf n; FApp AppTsd] g tsd nc tr) (repeat CStep 8) =
    Some (mkcfg [FBT BTInit n; FApp AppTsd] g2 (Some n) nc ([EReg u (num + 1)%Z] ++ tr))).
  { vm_compute. reflexivity. }
  change (repeat CStep 9) with (repeat CStep 8 ++ [CStep]). rewrite (solo_app _ _ _ _ _ _ E1). clear E1.
  assert (NN : n_num (nd g2 n) = (num + 1)%Z /\ n_data (nd g2 n) = n_data (nd g n)).
  { unfold g2, nd, set_node. cbn [g_heap set_g_heap set_g_lock set_g_list set_g_num]. rewrite !upd_same. split; reflexivity. }
  destruct NN as [N1 N2]. assert (DD : g_dead g2 = false) by reflexivity. clearbody g2.
  exists g2, (Some n). unfold solo, solo1. cbn [k_st k_g is_unwind barred].
  rewrite DD. cbn [k_tsd k_nc frame_step auto_step bt_step]. rewrite N1, N2. reflexivity.
Qed.

(** The flags, in terms of what was seen. *)
Lemma cookie_win dyn s : reach dyn any s -> g_cookie (s_g s) = true -> exists w, In (EWin w) (s_tr s).
Proof.
  apply (reach_invariant dyn any (fun s => g_cookie (s_g s) = true -> exists w, In (EWin w) (s_tr s))).
  - discriminate.
  - clear s. intros s t c s' R H1 HO HS. apply step_view in HS. destruct HS as (_ & LV & V).
    destruct V as [| | | | | | |f r e Hst Hun Hbar Hfs Es']; subst; unfold add_ev; cbn [set_th s_tr s_g app];
      try exact H1; try (intros X; destruct (H1 X) as [w I]; exists w; right; exact I).
    rewrite apply_g, apply_tr. intros X.
    assert (Y : g_cookie (s_g s) = true \/ In (EWin t) (e_ev e)).
    { revert X. clear R Hst LV H1.
      assert (T : forall tsd g, g_cookie (reset_list tsd g) = g_cookie g) by (intros; apply reset_facts).
      fs_cases Hfs; brk Hfs; inversion Hfs; subst; clear Hfs; cbn; g_brk; cbn; rewrite ?T; auto. }
    destruct Y as [Y|Y]; [destruct (H1 Y) as [w I]|]; eexists; apply in_or_app; eauto.
Qed.

Lemma begun_libonce dyn s w : reach dyn any s -> In (ECall w CbInitLibrary) (s_tr s) -> g_libonce (s_g s) = true.
Proof.
  intros R I. destruct (lib_token _ _ R) as (t & _ & B). destruct (g_libonce (s_g s)) eqn:E; [reflexivity|].
  specialize (B eq_refl w). unfold phi, by_thread in B.
  revert I B. generalize (s_tr s). induction l as [|e l IH]; intros I B; [destruct I|].
  cbn [wsum] in B. destruct I as [->|I]; [cbn in B; rewrite Z.eqb_refl in B; cbn in B; lia|]. apply IH; [exact I|lia].
Qed.

(** What the child's history shows when fork has returned, and when it is over. *)
Definition child_begun (t d v : Z) : list event := [EForkRet t; ERet t (CbInitProcess d) v; ECall t (CbInitProcess d)].
Definition child_over (t v b x : Z) (lib : bool) : list event :=
  [EDead t] ++ (if lib then [ERet t CbFiniLibrary 0; ECall t CbFiniLibrary] else []) ++
  [EPast t; ERet t (CbFiniProcess EXIT_NORMAL v) x; ECall t (CbFiniProcess EXIT_NORMAL v);
   ERet t (CbBeginExit EXIT_NORMAL) b; ECall t (CbBeginExit EXIT_NORMAL); EWin t; EExit t EXIT_NORMAL].
Definition steps (t : Z) (l : list choice) : list (Z * choice) := map (fun c => (t, c)) l.

Lemma child_comes dyn s t d v f r : g_dead (s_g s) = false -> th_live (s_th s t) = true ->
  th_stack (s_th s t) = FForkGo d :: f :: r -> open f = true -> g_libonce (s_g s) = true ->
  exists s1, run dyn s ((t, CChild) :: steps t (child_in v)) = Some s1 /\ s_next s1 = s_next s /\
    (forall u, u <> t -> th_live (s_th s1 u) = false) /\
    exists g tsd nc, at_cfg s1 t (mkcfg (f :: r) g tsd nc (child_begun t d v ++ EFork t :: s_tr s)) /\
    g_dead g = false /\ g_used g = false /\ g_cookie g = g_cookie (s_g s) /\ g_libdone g = false /\ g_dtor g = g_dtor (s_g s) /\
    n_data (nd g MAIN_TN) = v /\ g_lock g = g_lock (s_g s) /\ g_inexit g = g_inexit (s_g s) /\ g_initp g = true /\
    g_support g = g_support (s_g s) /\
    n_ignore (nd g MAIN_TN) = n_ignore (nd (reset_list (th_tsd (s_th s t)) (s_g s)) MAIN_TN) /\
    n_magic (nd g MAIN_TN) = n_magic (nd (reset_list (th_tsd (s_th s t)) (s_g s)) MAIN_TN).
Proof.
  intros D L ST O LO. destruct (fork_step dyn s t d (f :: r) D L ST) as (s0 & S0 & A0 & N0 & U0).
  destruct (child_solo dyn t d v f r (s_g s) (th_tsd (s_th s t)) (th_nc (s_th s t)) (EFork t :: s_tr s) O D LO)
    as (g & tsd & E & F1 & F2 & F3 & F4 & F5 & F6 & F7 & F8 & _ & F9 & F10 & F11 & F12).
  destruct (solo_run _ _ _ _ _ _ A0 E) as (s1 & S1 & A1 & N1 & U1).
  exists s1. split; [cbn [run steps]; rewrite S0; exact S1|]. split; [congruence|].
  split; [intros u U; rewrite U1 by exact U; auto|]. exists g, tsd, (th_nc (s_th s t)). split; [exact A1|]. auto 20.
Qed.

Lemma child_goes dyn s t d v b x f r : g_dead (s_g s) = false -> th_live (s_th s t) = true ->
  th_stack (s_th s t) = FForkGo d :: f :: r -> open f = true -> g_libonce (s_g s) = true -> g_cookie (s_g s) = false ->
  exists s1 s2, run dyn s ((t, CChild) :: steps t (child_in v)) = Some s1 /\
    image (s_tr s1) = child_begun t d v /\ th_stack (s_th s1 t) = f :: r /\
    (forall u, u <> t -> th_live (s_th s1 u) = false) /\
    run dyn s1 (steps t (child_out (dyn && negb (g_dtor (s_g s))) b x)) = Some s2 /\
    image (s_tr s2) = child_over t v b x (dyn && negb (g_dtor (s_g s))) ++ child_begun t d v.
Proof.
  intros D L ST O LO CK. destruct (child_comes dyn s t d v f r D L ST O LO) as (s1 & S1 & _ & U1 & g & tsd & nc & A1 & F1 & F2 & F3 & F4 & F5 & F6 & _).
  rewrite CK in F3. rewrite <- F5.
  destruct (exit_solo dyn t b x f r g tsd nc (child_begun t d v ++ EFork t :: s_tr s) O F1 F2 F3 F4) as (g2 & tsd2 & E & _).
  destruct (solo_run _ _ _ _ _ _ A1 E) as (s2 & S2 & A2 & _). rewrite F6 in A2.
  destruct A1 as (_ & B1 & _ & _ & _ & B5). destruct A2 as (_ & _ & _ & _ & _ & C5). cbn [k_st k_tr] in B1, B5, C5.
  exists s1, s2. split; [exact S1|]. split; [rewrite B5; reflexivity|]. split; [exact B1|]. split; [exact U1|]. split; [exact S2|].
  rewrite C5. destruct (dyn && negb (g_dtor g)); reflexivity.
Qed.

(** The child makes a thread. *)
Lemma made_step dyn s t q my n r g tsd nc tr : at_cfg s t (mkcfg (FPCReal q my n :: r) g tsd nc tr) -> g_dead g = false -> s_next s <> t ->
  exists s', step dyn s t COk = Some s' /\
    at_cfg s' (s_next s) (mkcfg [FBT BTSelf n; FApp AppTsd] g None false (ECreate t q (s_next s) true :: tr)).
Proof.
  intros (L & ST & G & TS & NC & TR) D NE. cbn in ST, G, TS, NC, TR. unfold step. rewrite G, D, L, ST. cbn. eexists. split; [reflexivity|].
  unfold apply_eff, at_cfg. cbn. rewrite upd_same, TR. cbn. auto 10.
Qed.

Lemma child_makes dyn s d v st ar ra e f r : reach dyn clean_forks s -> g_dead (s_g s) = false -> th_live (s_th s MAIN) = true ->
  th_stack (s_th s MAIN) = FForkGo d :: f :: r -> open f = true -> existsb handling (f :: r) = false -> g_libonce (s_g s) = true ->
  g_cookie (s_g s) = false -> g_lock (s_g s) = None -> n_ignore (nd (s_g s) MAIN_TN) = false -> e <> IGNORE_NEW_THREAD ->
  exists s1 s2 num, run dyn s ((MAIN, CChild) :: steps MAIN (child_in v)) = Some s1 /\
    image (s_tr s1) = child_begun MAIN d v /\ th_stack (s_th s1 MAIN) = f :: r /\
    run dyn s1 (steps MAIN (making_in (g_support (s_g s)) st ar ra e) ++ (MAIN, COk) :: steps (s_next s) (repeat CStep 9)) = Some s2 /\
    exists q, q_start q = st /\ q_arg q = ar /\ In (ECreate MAIN q (s_next s) true) (image (s_tr s2)) /\
    In (ECall (s_next s) (CbInitThread num e)) (image (s_tr s2)).
Proof.
  intros R D L ST O NH LO CK LK NI NE. pose proof (main_reach _ _ R) as HM.
  assert (RA : reach dyn any s) by (eapply reach_weaken; [|exact R]; now intros).
  assert (IX : g_inexit (s_g s) = false).
  { destruct (g_inexit (s_g s)) eqn:X; [|reflexivity]. destruct (began_reach _ _ RA) as [B _]. rewrite (B X) in CK. discriminate CK. }
  assert (RS : nd (reset_list (th_tsd (s_th s MAIN)) (s_g s)) MAIN_TN = nd (s_g s) MAIN_TN).
  { unfold reset_list. destruct (g_used (s_g s)) eqn:U; [|reflexivity]. unfold get_tn. rewrite U, (mi_used _ HM U).
    destruct (mi_node _ HM) as (_ & M & _). rewrite M. reflexivity. }
  assert (SN : s_next s <> MAIN). { pose proof (born_next _ (born_reach _ _ RA)). unfold MAIN. lia. }
  destruct (child_comes dyn s MAIN d v f r D L ST O LO) as (s1 & S1 & N1 & U1 & g & tsd & nc & A1 & F1 & F2 & F3 & F4 & F5 & F6 & F7 & F8 & F9 & F10 & F11 & F12).
  rewrite RS, NI in F11. rewrite RS, (proj1 (proj2 (mi_node _ HM))) in F12. rewrite LK in F7. rewrite IX in F8.
  destruct (create_solo dyn MAIN st ar ra e f r g tsd nc (child_begun MAIN d v ++ EFork MAIN :: s_tr s) O NH F1 F2 F7 F9 F12 F11 NE)
    as (g2 & ev & E & NF & G1 & G2 & G3 & G4 & G5 & G6).
  destruct (solo_run _ _ _ _ _ _ A1 E) as (s2 & S2 & A2 & N2 & U2). rewrite F10 in S2. rewrite F8 in G3.
  assert (SN2 : s_next s2 <> MAIN) by congruence.
  destruct (made_step dyn s2 _ _ _ _ _ _ _ _ _ A2 G1 SN2) as (s3 & S3 & A3).
  assert (DT : n_data (nd g2 (array_node (g_chunk g) 0)) = e) by (rewrite G6; reflexivity).
  match type of A3 with at_cfg _ _ (mkcfg _ _ _ _ ?tr) =>
    destruct (thread_solo dyn (s_next s2) _ g2 None false tr e G1 G2 G3 G4 DT) as (g4 & tsd4 & E4) end.
  destruct (solo_run _ _ _ _ _ _ A3 E4) as (s4 & S4 & A4 & _). rewrite N2, N1 in *.
  destruct A1 as (_ & B1 & _ & _ & _ & B5). destruct A4 as (_ & _ & _ & _ & _ & C5). cbn [k_st k_tr] in B1, B5, C5.
  exists s1, s4, (g_num g2 + 1)%Z. split; [exact S1|]. split; [rewrite B5; reflexivity|]. split; [exact B1|]. split.
  - rewrite run_app; unfold steps at 1; rewrite S2. cbn [run]. rewrite S3. exact S4.
  - exists (mkcreq (g_calls g) st ar ra). split; [reflexivity|]. split; [reflexivity|].
    rewrite C5. cbn [app image]. split; [right; right; left; reflexivity|left; reflexivity].
Qed.
