(** Invariants of EnvRaceModel.v. *)
From Verif Require Import EnvRaceModel EnvRaceSpec.
From Coq Require Import List. Import ListNotations.

Definition good (h : list event) (e : bytes) : Prop :=
  contains LD_PRELOAD e = false /\ was_passed h e.

Definition pc_safe (s : state) (p : pc) : Prop :=
  match p with
  | Idle => True
  | Copy a i rest => 0 <= a < s_next s /\ 0 <= i /\ i + Z.of_nat (length rest) + 2 <= s_len s a /\
                     forall e, In e rest -> was_passed (s_hist s) e
  | Load a i got => 0 <= a < s_next s /\ 0 <= i < s_len s a /\ forall e, In e got -> good (s_hist s) e
  | Ready got => forall e, In e got -> good (s_hist s) e
  end.

Record Safe (s : state) : Prop := {
  sf_next : 1 <= s_next s;
  sf_len : s_len s 0 = INIT_ENVIRON_SIZE;
  sf_last : forall a, 0 <= a < s_next s -> s_mem s a (s_len s a - 1) = None;
  sf_mem : forall a i e, 0 <= a < s_next s -> s_mem s a i = Some e -> good (s_hist s) e;
  sf_pc : forall t, pc_safe s (s_pc s t);
  sf_bad : forall t, ~ In (Bad t) (s_hist s);
  sf_exec : forall t got e, In (Exec t got) (s_hist s) -> In e got -> good (s_hist s) e }.

Lemma passed_more l h e : was_passed h e -> was_passed (l ++ h) e.
Proof. intros (t & env & H & K). exists t, env. split; [apply in_or_app; now right|exact K]. Qed.
Lemma good_more l h e : good h e -> good (l ++ h) e.
Proof. intros [H K]. split; [exact H|now apply passed_more]. Qed.

Lemma map_size n ps : 0 < ps -> 0 <= n -> n <= (n * 8 + ps - 1) / ps * ps / 8.
Proof.
  intros Hp Hn. apply Z.div_le_lower_bound; [lia|].
  pose proof (Z.mod_pos_bound (n * 8 + ps - 1) ps Hp).
  pose proof (Z.div_mod (n * 8 + ps - 1) ps). nia.
Qed.

Lemma pc_safe_more s s' l p : s_next s <= s_next s' ->
  (forall a, 0 <= a < s_next s -> s_len s' a = s_len s a) -> s_hist s' = l ++ s_hist s ->
  pc_safe s p -> pc_safe s' p.
Proof.
  intros Hn Hl Hh. destruct p as [|a i rest|a i got|got]; cbn [pc_safe]; rewrite ?Hh.
  - auto.
  - intros (A & B & C & D). rewrite (Hl a A). split; [lia|]. split; [lia|]. split; [lia|].
    intros e He. now apply passed_more, D.
  - intros (A & B & C). rewrite (Hl a A). split; [lia|]. split; [lia|].
    intros e He. now apply good_more, C.
  - intros C e He. now apply good_more, C.
Qed.

(** A move that changes only one thread's position and adds harmless events. *)
Lemma safe_go s t p l : Safe s -> pc_safe s p -> (forall u, ~ In (Bad u) l) ->
  (forall u got, ~ In (Exec u got) l) -> Safe (go s t p l).
Proof.
  intros [N L La M P B X] Hp Hl Hx. unfold go.
  split; cbn [s_next s_len s_mem s_pc s_hist].
  - exact N.
  - exact L.
  - exact La.
  - intros a i e Ha He. apply good_more. eapply M; eauto.
  - intros u. eapply (pc_safe_more s _ l); [cbn; lia|cbn; auto|reflexivity|].
    unfold upd. destruct (u =? t); [exact Hp|apply P].
  - intros u Hu. apply in_app_or in Hu. destruct Hu as [Hu|Hu]; [exact (Hl u Hu)|exact (B u Hu)].
  - intros u got e Hu He. apply in_app_or in Hu. destruct Hu as [Hu|Hu]; [exfalso; exact (Hx u got Hu)|].
    apply good_more. eapply X; eauto.
Qed.

Lemma safe_put s a i v t p : Safe s -> 0 <= a < s_next s -> 0 <= i < s_len s a - 1 ->
  (forall e, v = Some e -> good (s_hist s) e) -> pc_safe s p -> Safe (put s a i v t p).
Proof.
  intros [N L La M P B X] Ha Hi Hv Hp. unfold put.
  replace ((0 <=? i) && (i <? s_len s a)) with true by lia.
  split; cbn [s_next s_len s_mem s_pc s_hist].
  - exact N.
  - exact L.
  - intros b Hb. destruct (Z.eq_dec b a) as [->|Hne].
    + rewrite upd_same, upd_other by lia. now apply La.
    + rewrite upd_other by exact Hne. now apply La.
  - intros b j e Hb. destruct (Z.eq_dec b a) as [->|Hne].
    + rewrite upd_same. destruct (Z.eq_dec j i) as [->|Hj].
      * rewrite upd_same. apply Hv.
      * rewrite upd_other by exact Hj. now apply M.
    + rewrite upd_other by exact Hne. now apply M.
  - intros u. eapply (pc_safe_more s _ []); [cbn; lia|cbn; auto|reflexivity|].
    unfold upd. destruct (u =? t); [exact Hp|apply P].
  - exact B.
  - exact X.
Qed.

Lemma safe_step s t c : Safe s -> Safe (step s t c).
Proof.
  intros I. unfold step. destruct (s_over s) eqn:Ho; [exact I|].
  pose proof (sf_pc s I t) as Hp. destruct (s_pc s t) as [|a i [|e r]|a i got|got] eqn:Epc.
  - destruct c as [env ps| |]; try exact I.
    destruct (Z.gtb_spec (Z.of_nat (length env) + 2) INIT_ENVIRON_SIZE) as [G|G].
    + destruct I as [N L La M P B X].
      assert (Hs : Z.of_nat (length env) + 2 <=
        (((Z.of_nat (length env) + 2) * 8 + (if 0 <? ps then ps else 4096) - 1) /
         (if 0 <? ps then ps else 4096) * (if 0 <? ps then ps else 4096)) / 8)
        by (apply map_size; destruct (Z.ltb_spec 0 ps); lia).
      split; cbn [s_next s_len s_mem s_pc s_hist].
      * lia.
      * rewrite upd_other by lia. exact L.
      * intros b Hb. destruct (Z.eq_dec b (s_next s)) as [->|Hne].
        -- now rewrite upd_same.
        -- rewrite !upd_other by exact Hne. apply La. lia.
      * intros b j e Hb. destruct (Z.eq_dec b (s_next s)) as [->|Hne].
        -- rewrite upd_same. discriminate.
        -- rewrite upd_other by exact Hne. intros He. apply (good_more [Call t env]).
           apply (M b j); [lia|exact He].
      * intros u. destruct (Z.eq_dec u t) as [->|Hne].
        -- rewrite upd_same. cbn [pc_safe s_next s_len s_hist]. rewrite upd_same.
           split; [lia|]. split; [lia|]. split; [lia|].
           intros e He. exists t, env. split; [now left|exact He].
        -- rewrite upd_other by exact Hne.
           eapply (pc_safe_more s _ [Call t env]); [cbn; lia| |reflexivity|apply P].
           cbn. intros b Hb. apply upd_other. lia.
      * intros u [Hu|Hu]; [discriminate|exact (B u Hu)].
      * intros u got e [Hu|Hu] He; [discriminate|]. apply (good_more [Call t env]).
        eapply X; eauto.
    + destruct I as [N L La M P B X].
      unfold go. split; cbn [s_next s_len s_mem s_pc s_hist app].
      * exact N.
      * exact L.
      * exact La.
      * intros b j e Hb He. apply (good_more [Call t env]). now apply (M b j).
      * intros u. destruct (Z.eq_dec u t) as [->|Hne].
        -- rewrite upd_same. cbn [pc_safe s_next s_len s_hist]. rewrite L.
           split; [lia|]. split; [lia|]. split; [lia|].
           intros e He. exists t, env. split; [now left|exact He].
        -- rewrite upd_other by exact Hne.
           eapply (pc_safe_more s _ [Call t env]); [cbn; lia|cbn; auto|reflexivity|apply P].
      * intros u [Hu|Hu]; [discriminate|exact (B u Hu)].
      * intros u got e [Hu|Hu] He; [discriminate|]. apply (good_more [Call t env]).
        eapply X; eauto.
  - cbn [pc_safe length] in Hp. destruct Hp as (A & B & C & D).
    apply safe_put; [exact I|exact A|lia|discriminate|].
    cbn [pc_safe]. split; [exact A|]. split; [lia|]. intros e [].
  - cbn [pc_safe length] in Hp. destruct Hp as (A & B & C & D).
    destruct (contains LD_PRELOAD e) eqn:Ec.
    + apply safe_go; [exact I| |intros u []|intros u g []].
      cbn [pc_safe]. split; [exact A|]. split; [lia|]. split; [lia|].
      intros x Hx. apply D. now right.
    + apply safe_put; [exact I|exact A|lia| |].
      * intros x [= <-]. split; [exact Ec|apply D; now left].
      * cbn [pc_safe]. split; [exact A|]. split; [lia|]. split; [lia|].
        intros x Hx. apply D. now right.
  - cbn [pc_safe] in Hp. destruct Hp as (A & B & C).
    replace ((0 <=? i) && (i <? s_len s a)) with true by lia.
    destruct (s_mem s a i) as [e|] eqn:Em.
    + apply safe_go; [exact I| |intros u []|intros u g []].
      cbn [pc_safe]. split; [exact A|]. split.
      * pose proof (sf_last s I a A) as La.
        destruct (Z.eq_dec i (s_len s a - 1)) as [E|E]; [subst i; congruence|lia].
      * intros x Hx. apply in_app_or in Hx. destruct Hx as [Hx|[<-|[]]]; [now apply C|].
        apply (sf_mem s I a i e A Em).
    + apply safe_go; [exact I|exact C|intros u []|intros u g []].
  - cbn [pc_safe] in Hp.
    assert (K : Safe (mkstate (s_mem s) (s_len s) (s_next s) (s_pc s) true (Exec t got :: s_hist s))).
    { destruct I as [N L La M P B X]. split; cbn [s_next s_len s_mem s_pc s_hist].
      - exact N.
      - exact L.
      - exact La.
      - intros a i e Ha He. apply (good_more [Exec t got]). eapply M; eauto.
      - intros u. eapply (pc_safe_more s _ [Exec t got]); [cbn; lia|cbn; auto|reflexivity|apply P].
      - intros u [Hu|Hu]; [discriminate|exact (B u Hu)].
      - intros u g e [Hu|Hu] He; apply (good_more [Exec t got]).
        + injection Hu as <- <-. now apply Hp.
        + eapply X; eauto. }
    destruct c as [env ps| |]; try exact K.
    apply safe_go; [exact I|exact Logic.I| |].
    + intros u [Hu|[]]. discriminate.
    + intros u g [Hu|[]]. discriminate.
Qed.

Lemma safe_start : Safe start.
Proof.
  split; cbn.
  - lia.
  - reflexivity.
  - reflexivity.
  - discriminate.
  - auto.
  - auto.
  - intros t got e [].
Qed.

Lemma safe_run l : forall s, Safe s -> Safe (run s l).
Proof. induction l as [|[t c] l IH]; intros s I; [exact I|]. apply IH, safe_step, I. Qed.

(** ** The environment of a call that nothing disturbs *)

Definition kept (env : list bytes) : list bytes := without_preload env.

Definition filled (m : Z -> option bytes) (l : list bytes) : Prop :=
  forall j, 0 <= j < Z.of_nat (length l) -> m j = nth_error l (Z.to_nat j).

Definition area_of (p : pc) : option Z :=
  match p with Copy a _ _ | Load a _ _ => Some a | _ => None end.

Definition undisturbed (h : list event) (t : Z) (env : list bytes) : Prop :=
  small env = true -> alone h t.

Definition pc_exact (s : state) (env : list bytes) (p : pc) : Prop :=
  match p with
  | Idle => False
  | Copy a i rest => exists past, env = past ++ rest /\ i = Z.of_nat (length (kept past)) /\
                                  filled (s_mem s a) (kept past)
  | Load a i got => filled (s_mem s a) (kept env) /\
                    s_mem s a (Z.of_nat (length (kept env))) = None /\
                    0 <= i <= Z.of_nat (length (kept env)) /\
                    got = firstn (Z.to_nat i) (kept env)
  | Ready got => got = kept env
  end.

Record Exact (s : state) : Prop := {
  ex_run : s_over s = false -> forall t, current (s_hist s) t = None <-> s_pc s t = Idle;
  ex_area : s_over s = false -> forall t a env, current (s_hist s) t = Some env ->
            area_of (s_pc s t) = Some a -> if small env then a = 0 else 1 <= a;
  ex_own : forall t u a, area_of (s_pc s t) = Some a -> area_of (s_pc s u) = Some a ->
           a = 0 \/ t = u;
  ex_pc : s_over s = false -> forall t env, current (s_hist s) t = Some env ->
          undisturbed (s_hist s) t env -> pc_exact s env (s_pc s t);
  ex_exec : forall newer t got older env, s_hist s = newer ++ Exec t got :: older ->
            current older t = Some env -> undisturbed older t env -> got = kept env }.

Lemma alone_others h t env : current h t = Some env -> alone h t ->
  forall v, v <> t -> ~ in_small h v.
Proof.
  induction h as [|x h IH]; cbn [current alone]; [discriminate|].
  destruct x as [u e|u g|u|u].
  - destruct (Z.eqb_spec u t) as [->|Hne].
    + intros _ H v Hv. unfold in_small. cbn [current].
      destruct (Z.eqb_spec t v); [congruence|]. apply H. exact Hv.
    + intros Hc [Hs Ha] v Hv. unfold in_small. cbn [current].
      destruct (Z.eqb_spec u v) as [->|Hv'].
      * intros (e' & [= <-] & Hs'). congruence.
      * exact (IH Hc Ha v Hv).
  - destruct (Z.eqb_spec u t) as [->|Hne]; [discriminate|]. intros Hc Ha v Hv. unfold in_small. cbn [current].
    destruct (Z.eqb_spec u v) as [->|Hv']; [intros (e' & K & _); discriminate|exact (IH Hc Ha v Hv)].
  - destruct (Z.eqb_spec u t) as [->|Hne]; [discriminate|]. intros Hc Ha v Hv. unfold in_small. cbn [current].
    destruct (Z.eqb_spec u v) as [->|Hv']; [intros (e' & K & _); discriminate|exact (IH Hc Ha v Hv)].
  - destruct (Z.eqb_spec u t) as [->|Hne]; [discriminate|]. intros Hc Ha v Hv. unfold in_small. cbn [current].
    destruct (Z.eqb_spec u v) as [->|Hv']; [intros (e' & K & _); discriminate|exact (IH Hc Ha v Hv)].
Qed.

Lemma pc_exact_mem s s' env p : (forall a, area_of p = Some a -> s_mem s' a = s_mem s a) ->
  pc_exact s env p -> pc_exact s' env p.
Proof.
  destruct p as [|a i rest|a i got|got]; cbn [pc_exact area_of]; intros H; auto;
    now rewrite (H a eq_refl).
Qed.

Lemma kept_app a b : kept (a ++ b) = kept a ++ kept b.
Proof. apply filter_app. Qed.

Lemma kept_keep e : contains LD_PRELOAD e = false -> kept [e] = [e].
Proof. intros H. unfold kept, without_preload. cbn [filter]. now rewrite H. Qed.
Lemma kept_drop e : contains LD_PRELOAD e = true -> kept [e] = [].
Proof. intros H. unfold kept, without_preload. cbn [filter]. now rewrite H. Qed.

Lemma exact_quiet s s' t a p' :
  Exact s -> s_over s = false -> s_over s' = false -> s_hist s' = s_hist s ->
  s_pc s' = upd (s_pc s) t p' -> area_of (s_pc s t) = Some a ->
  (area_of p' = Some a \/ area_of p' = None) -> p' <> Idle ->
  (forall b, b <> a -> s_mem s' b = s_mem s b) ->
  (forall env, pc_exact s env (s_pc s t) -> pc_exact s' env p') -> Exact s'.
Proof.
  intros [R A O P X] Ho Ho' Hh Hpc Ha Ha' Hi Hm Hp.
  specialize (R Ho). specialize (A Ho). specialize (P Ho).
  split; rewrite ?Hh, ?Hpc.
  - intros _ u. destruct (Z.eq_dec u t) as [->|Hne].
    + rewrite upd_same. rewrite R. split; [|tauto]. intros E. rewrite E in Ha. discriminate.
    + rewrite upd_other by exact Hne. apply R.
  - intros _ u b env Hc. destruct (Z.eq_dec u t) as [->|Hne].
    + rewrite upd_same. intros Hb. apply (A t b env Hc). rewrite Ha. destruct Ha' as [E|E]; congruence.
    + rewrite upd_other by exact Hne. now apply A.
  - intros u v b. destruct (Z.eq_dec u t) as [->|Hu], (Z.eq_dec v t) as [->|Hv];
      rewrite ?upd_same; rewrite ?(upd_other _ _ t p') by assumption; intros Eu Ev.
    + now right.
    + apply (O t v b); [|exact Ev]. rewrite Ha. destruct Ha' as [E|E]; congruence.
    + apply (O u t b); [exact Eu|]. rewrite Ha. destruct Ha' as [E|E]; congruence.
    + now apply (O u v b).
  - intros _ u env Hc Hu. destruct (Z.eq_dec u t) as [->|Hne].
    + rewrite upd_same. apply Hp. now apply P.
    + rewrite upd_other by exact Hne. apply (pc_exact_mem s); [|now apply P].
      intros b Hb. apply Hm. intros ->.
      destruct (O u t a Hb Ha) as [->|E]; [|congruence].
      destruct (current (s_hist s) t) as [envt|] eqn:Et.
      * pose proof (A t 0 envt Et Ha) as K1. pose proof (A u 0 env Hc Hb) as K2.
        destruct (small env) eqn:Es; [|lia]. destruct (small envt) eqn:Est; [|lia].
        apply (alone_others _ u env Hc (Hu Es) t); [congruence|]. exists envt. auto.
      * apply R in Et. rewrite Et in Ha. discriminate.
  - exact X.
Qed.

Lemma firstn_nth_step (l : list bytes) i x : nth_error l i = Some x ->
  firstn (S i) l = firstn i l ++ [x].
Proof.
  revert i. induction l as [|y l IH]; intros [|i] H; try discriminate.
  - injection H as ->. reflexivity.
  - cbn [firstn app]. f_equal. now apply IH.
Qed.

Lemma exact_step s t c : Safe s -> Exact s -> Exact (step s t c).
Proof.
  intros SF I. unfold step. destruct (s_over s) eqn:Ho; [exact I|].
  pose proof (sf_pc s SF t) as Hp. destruct (s_pc s t) as [|a i [|e r]|a i got|got] eqn:Epc.
  - destruct c as [env ps| |]; try exact I.
    pose proof I as [R A O P X]. specialize (R Ho). specialize (A Ho). specialize (P Ho).
    assert (Ht : current (s_hist s) t = None) by now apply R.
    assert (G : forall m len nx b, (forall a, 0 <= a < s_next s -> m a = s_mem s a) ->
       (if small env then b = 0 else b = s_next s) ->
       Exact (mkstate m len nx (upd (s_pc s) t (Copy b 0 env)) (s_over s) (Call t env :: s_hist s))).
    { intros m len nx b Hm Hb. split; cbn [s_over s_hist s_pc s_mem].
      - intros _ u. cbn [current]. destruct (Z.eqb_spec t u) as [->|Hne].
        + rewrite upd_same. split; discriminate.
        + rewrite upd_other by congruence. apply R.
      - intros _ u a' env'. cbn [current]. destruct (Z.eqb_spec t u) as [->|Hne].
        + rewrite upd_same. cbn [area_of]. intros [= <-] [= <-].
          pose proof (sf_next s SF). destruct (small env); lia.
        + rewrite upd_other by congruence. apply A.
      - assert (F : forall u a', u <> t -> area_of (s_pc s u) = Some a' -> a' < s_next s).
        { intros u a' Hu Ea. pose proof (sf_pc s SF u) as K. destruct (s_pc s u); cbn in Ea, K;
            try discriminate; injection Ea as <-; lia. }
        intros u v a'. destruct (Z.eq_dec u t) as [->|Hu], (Z.eq_dec v t) as [->|Hv];
          rewrite ?upd_same; rewrite ?(upd_other _ _ t _) by assumption; cbn [area_of].
        + now right.
        + intros [= <-] Ev. apply F in Ev; [|exact Hv]. destruct (small env); [now left|lia].
        + intros Ev [= <-]. apply F in Ev; [|exact Hu]. destruct (small env); [now left|lia].
        + apply O.
      - intros _ u env'. cbn [current]. destruct (Z.eqb_spec t u) as [->|Hne].
        + rewrite upd_same. intros [= <-] _. exists []. split; [reflexivity|]. split; [reflexivity|].
          intros j Hj. cbn in Hj. lia.
        + rewrite upd_other by congruence. intros Hc Hu.
          apply (pc_exact_mem s).
          * intros a' Ea. cbn [s_mem]. apply Hm. pose proof (sf_pc s SF u) as K.
            destruct (s_pc s u); cbn in Ea, K; try discriminate; injection Ea as <-; lia.
          * apply P; [exact Hc|]. intros Es. specialize (Hu Es). cbn [alone] in Hu.
            destruct (Z.eqb_spec t u); [congruence|]. apply Hu.
      - intros newer u got older env' E. destruct newer as [|x newer]; [discriminate|].
        injection E as <- E. exact (X newer u got older env' E). }
    destruct (Z.gtb_spec (Z.of_nat (length env) + 2) INIT_ENVIRON_SIZE) as [K|K]; unfold INIT_ENVIRON_SIZE in K.
    + rewrite Ho in G. apply G.
      * intros a Ha. apply upd_other. lia.
      * unfold small. destruct (Z.leb_spec (Z.of_nat (length env)) 248); [lia|reflexivity].
    + unfold go. cbn [app]. apply G; [reflexivity|].
      unfold small. destruct (Z.leb_spec (Z.of_nat (length env)) 248); [reflexivity|lia].
  - cbn [pc_safe length] in Hp. destruct Hp as (B1 & B2 & B3 & B4).
    unfold put. replace ((0 <=? i) && (i <? s_len s a)) with true by lia.
    apply (exact_quiet s _ t a (Load a 0 []) I Ho); try reflexivity.
    + exact Ho.
    + now rewrite Epc.
    + now left.
    + discriminate.
    + intros b Hb. cbn [s_mem]. now apply upd_other.
    + rewrite Epc. cbn [pc_exact s_mem]. intros env (past & -> & -> & F). rewrite app_nil_r.
      rewrite upd_same. split; [|split; [apply upd_same|split; [lia|reflexivity]]].
      intros j Hj. rewrite upd_other by lia. now apply F.
  - cbn [pc_safe length] in Hp. destruct Hp as (B1 & B2 & B3 & B4).
    destruct (contains LD_PRELOAD e) eqn:Ec.
    + apply (exact_quiet s _ t a (Copy a i r) I Ho); try reflexivity.
      * exact Ho.
      * now rewrite Epc.
      * now left.
      * discriminate.
      * rewrite Epc. cbn [pc_exact s_mem go]. intros env (past & -> & -> & F).
        exists (past ++ [e]). rewrite <- app_assoc. split; [reflexivity|].
        rewrite kept_app, (kept_drop e Ec), app_nil_r. auto.
    + unfold put. replace ((0 <=? i) && (i <? s_len s a)) with true by lia.
      apply (exact_quiet s _ t a (Copy a (i + 1) r) I Ho); try reflexivity.
      * exact Ho.
      * now rewrite Epc.
      * now left.
      * discriminate.
      * intros b Hb. cbn [s_mem]. now apply upd_other.
      * rewrite Epc. cbn [pc_exact s_mem]. intros env (past & -> & -> & F).
        exists (past ++ [e]). rewrite <- app_assoc. split; [reflexivity|].
        rewrite kept_app, (kept_keep e Ec), app_length. cbn [length]. split; [lia|].
        rewrite upd_same. intros j Hj. rewrite app_length in Hj. cbn [length] in Hj.
        destruct (Z.eq_dec j (Z.of_nat (length (kept past)))) as [->|Hne].
        -- rewrite upd_same, Nat2Z.id, nth_error_app2, Nat.sub_diag by lia. reflexivity.
        -- rewrite upd_other by exact Hne. rewrite nth_error_app1 by lia. apply F. lia.
  - cbn [pc_safe] in Hp. destruct Hp as (B1 & B2 & B3).
    replace ((0 <=? i) && (i <? s_len s a)) with true by lia.
    destruct (s_mem s a i) as [e|] eqn:Em.
    + apply (exact_quiet s _ t a (Load a (i + 1) (got ++ [e])) I Ho); try reflexivity.
      * exact Ho.
      * now rewrite Epc.
      * now left.
      * discriminate.
      * rewrite Epc. cbn [pc_exact s_mem go]. intros env (F & E & K & ->).
        split; [exact F|]. split; [exact E|].
        destruct (Z.eq_dec i (Z.of_nat (length (kept env)))) as [->|Hne]; [congruence|].
        split; [lia|]. replace (Z.to_nat (i + 1)) with (S (Z.to_nat i)) by lia.
        symmetry. apply firstn_nth_step. rewrite <- F by lia. exact Em.
    + apply (exact_quiet s _ t a (Ready got) I Ho); try reflexivity.
      * exact Ho.
      * now rewrite Epc.
      * now right.
      * discriminate.
      * rewrite Epc. cbn [pc_exact s_mem go]. intros env (F & E & K & ->).
        destruct (Z.eq_dec i (Z.of_nat (length (kept env)))) as [->|Hne].
        -- rewrite Nat2Z.id. apply firstn_all.
        -- exfalso. rewrite F in Em by lia. apply nth_error_None in Em. lia.
  - pose proof I as [R A O P X]. specialize (R Ho). specialize (A Ho). specialize (P Ho).
    assert (K : Exact (mkstate (s_mem s) (s_len s) (s_next s) (s_pc s) true (Exec t got :: s_hist s))).
    { split; cbn [s_over s_hist s_pc s_mem]; try discriminate; [exact O|].
      intros newer u g older env E Hc Hu. destruct newer as [|x newer].
      - injection E as <- <- <-. specialize (P t env Hc Hu). rewrite Epc in P. exact P.
      - injection E as _ E. exact (X newer u g older env E Hc Hu). }
    destruct c as [env ps| |]; try exact K.
    unfold go. split; cbn [s_over s_hist s_pc s_mem app].
    + intros _ u. cbn [current]. destruct (Z.eqb_spec t u) as [->|Hne].
      * rewrite upd_same. split; auto.
      * rewrite upd_other by congruence. apply R.
    + intros _ u a env. cbn [current]. destruct (Z.eqb_spec t u) as [->|Hne]; [discriminate|].
      rewrite upd_other by congruence. apply A.
    + intros u v b. destruct (Z.eq_dec u t) as [->|Hu], (Z.eq_dec v t) as [->|Hv];
        rewrite ?upd_same; rewrite ?(upd_other _ _ t _) by assumption; cbn [area_of]; try discriminate.
      apply O.
    + intros _ u env. cbn [current]. destruct (Z.eqb_spec t u) as [->|Hne]; [discriminate|].
      rewrite upd_other by congruence. intros Hc Hu. apply (pc_exact_mem s); [reflexivity|].
      now apply P.
    + intros newer u g older env E Hc Hu. destruct newer as [|x newer]; [discriminate|].
      injection E as _ E. exact (X newer u g older env E Hc Hu).
Qed.

Lemma exact_start : Exact start.
Proof.
  split; cbn.
  - tauto.
  - discriminate.
  - discriminate.
  - discriminate.
  - intros newer t got older env E. destruct newer; discriminate.
Qed.

Lemma exact_run l : Exact (run start l).
Proof.
  assert (H : forall s, Safe s -> Exact s -> Exact (run s l)).
  { induction l as [|[t c] l IH]; intros s I J; [exact J|].
    apply IH; [now apply safe_step|now apply exact_step]. }
  apply H; [apply safe_start|apply exact_start].
Qed.
