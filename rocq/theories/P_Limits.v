(** Bounds and preferences shared within dependency groups; lookup tables. *)
From Verif Require Import Base M_Data Spec M_Union M_Names M_Build Spec_Input P_Union P_Scoring P_Con P_Compile.
From Coq Require Import Relations Sorted.

Lemma mfold_prefix {A B} (P : list A -> B -> Prop) (f : B -> A -> outcome B) l : forall b,
  P [] b ->
  (forall pre x post b, l = pre ++ x :: post -> P pre b -> exists b', f b x = Ok b' /\ P (pre ++ [x]) b') ->
  exists r, mfold f l b = Ok r /\ P l r.
Proof.
  intros b HP HS.
  assert (G : forall post pre b, l = pre ++ post -> P pre b -> exists r, mfold f post b = Ok r /\ P l r).
  { induction post as [|x post IH]; intros pre b0 El Hb; cbn [mfold].
    - rewrite app_nil_r in El. subst. eauto.
    - destruct (HS pre x post b0 El Hb) as (b' & Hf & Hp). rewrite Hf. cbn [bind].
      apply (IH (pre ++ [x])); auto. rewrite <- app_assoc. auto. }
  apply (G l []); auto.
Qed.

Lemma get_some {A} (l : list A) i x : nth_error l i = Some x -> get l i = Ok x.
Proof. apply get_ok. Qed.
Lemma set_some {A} (l : list A) i x : i < length l -> set l i x = Ok (upd l i x).
Proof. intros H. apply set_ok. auto. Qed.

(** ** Bounds *)
Section Limits.
Variables (chs : list choice_data) (js : list (nat * nat)) (u : uf).
Notation n := (length chs).

Let rt (c g : nat) : Prop := root (uf_parents u) c g.

Definition lim_inv (pre : list nat) (lim : list (N * N)) : Prop :=
  length lim = n /\
  forall g, g < n -> exists a b, nth_error lim g = Some (a, b) /\
    (forall c cd, In c pre -> rt c g -> nth_error chs c = Some cd -> (ch_min cd <= a /\ b <= ch_max cd)%N) /\
    (a = 0%N \/ exists c cd, In c pre /\ rt c g /\ nth_error chs c = Some cd /\ ch_min cd = a) /\
    (b = u32_max \/ exists c cd, In c pre /\ rt c g /\ nth_error chs c = Some cd /\ ch_max cd = b).

Lemma lim_step1 : uf_inv n u -> forall pre c post lim, seq 0 n = pre ++ c :: post -> lim_inv pre lim ->
  exists lim', (let* g := uf_find u c in
                let* l := get lim g in
                let* cd := get chs c in
                set lim g (N.max (fst l) (ch_min cd), N.min (snd l) (ch_max cd))) = Ok lim' /\ lim_inv (pre ++ [c]) lim'.
Proof.
  intros HI pre c post lim Es [HL HV].
  assert (Hc : c < n). { assert (In c (seq 0 n)) as Hin by (rewrite Es; apply in_or_app; right; left; auto). apply in_seq in Hin. lia. }
  destruct (uf_find_spec n u c HI Hc) as (g & Hf & Hg). rewrite Hf. cbn [bind].
  destruct (root_lt n u c g HI Hg) as [_ Hgn].
  destruct (HV g Hgn) as (a & b & Hn & H1 & H2 & H3). rewrite (get_some _ _ _ Hn). cbn [bind].
  destruct (nth_error chs c) as [cd|] eqn:Ec; [|apply nth_error_None in Ec; lia].
  rewrite (get_some _ _ _ Ec). cbn [bind fst snd]. rewrite set_some by lia.
  eexists; split; [reflexivity|]. split; [rewrite upd_length; auto|].
  intros g' Hg'. destruct (Nat.eq_dec g g') as [<-|Hne].
  - exists (N.max a (ch_min cd)), (N.min b (ch_max cd)). split; [apply nth_error_upd_same; lia|]. repeat split.
    + apply in_app_or in H as [H|[<-|[]]].
      * destruct (H1 _ _ H H0 H4). lia.
      * replace cd0 with cd by congruence. lia.
    + apply in_app_or in H as [H|[<-|[]]].
      * destruct (H1 _ _ H H0 H4). lia.
      * replace cd0 with cd by congruence. lia.
    + destruct (N.max_spec a (ch_min cd)) as [[_ ->]|[_ ->]].
      * right. exists c, cd. repeat split; auto. apply in_or_app; right; left; auto.
      * destruct H2 as [|(x & y & Hx & Hr)]; auto. right. exists x, y. split; auto. apply in_or_app; auto.
    + destruct (N.min_spec b (ch_max cd)) as [[_ ->]|[_ ->]].
      * destruct H3 as [|(x & y & Hx & Hr)]; auto. right. exists x, y. split; auto. apply in_or_app; auto.
      * right. exists c, cd. repeat split; auto. apply in_or_app; right; left; auto.
  - destruct (HV g' Hg') as (a' & b' & Hn' & H1' & H2' & H3'). exists a', b'.
    rewrite nth_error_upd_other by auto. split; auto. repeat split.
    + apply in_app_or in H as [H|[<-|[]]]; [eapply H1'; eauto|]. exfalso. apply Hne. eapply root_fun; eauto.
    + apply in_app_or in H as [H|[<-|[]]]; [eapply H1'; eauto|]. exfalso. apply Hne. eapply root_fun; eauto.
    + destruct H2' as [|(x & y & Hx & Hr)]; auto. right. exists x, y. split; auto. apply in_or_app; auto.
    + destruct H3' as [|(x & y & Hx & Hr)]; auto. right. exists x, y. split; auto. apply in_or_app; auto.
Qed.

Definition copy_inv (lim0 : list (N * N)) (pre : list nat) (lim : list (N * N)) : Prop :=
  length lim = n /\
  forall c g, rt c g -> nth_error lim c = (if existsb (Nat.eqb c) pre then nth_error lim0 g else nth_error lim0 c).

Lemma root_self c g : rt c g -> rt g g.
Proof. intros H. apply root_is_root in H. apply root_here; auto. Qed.

Lemma lim_step2 lim0 : uf_inv n u -> length lim0 = n ->
  forall pre c post lim, seq 0 n = pre ++ c :: post -> copy_inv lim0 pre lim ->
  exists lim', (let* g := uf_find u c in let* l := get lim g in set lim c l) = Ok lim' /\ copy_inv lim0 (pre ++ [c]) lim'.
Proof.
  intros HI HL0 pre c post lim Es [HL HV].
  assert (Hc : c < n). { assert (In c (seq 0 n)) as Hin by (rewrite Es; apply in_or_app; right; left; auto). apply in_seq in Hin. lia. }
  destruct (uf_find_spec n u c HI Hc) as (g & Hf & Hg). rewrite Hf. cbn [bind].
  destruct (root_lt n u c g HI Hg) as [_ Hgn].
  assert (Eg : nth_error lim g = nth_error lim0 g).
  { rewrite (HV g g) by (eapply root_self; eauto). destruct (existsb _ pre); auto. }
  destruct (nth_error lim0 g) as [l|] eqn:El; [|apply nth_error_None in El; lia].
  rewrite (get_some _ _ _ Eg). cbn [bind]. rewrite set_some by lia. eexists; split; [reflexivity|].
  split; [rewrite upd_length; auto|].
  intros c' g' Hg'. rewrite existsb_app. cbn [existsb]. rewrite orb_false_r.
  destruct (Nat.eq_dec c c') as [<-|Hne].
  - rewrite Nat.eqb_refl, orb_true_r. rewrite nth_error_upd_same by lia.
    rewrite (root_fun _ _ _ _ Hg' Hg). auto.
  - rewrite nth_error_upd_other by auto. rewrite (HV _ _ Hg').
    destruct (Nat.eqb_spec c' c); [congruence|]. rewrite orb_false_r. auto.
Qed.
End Limits.

Definition shared_bounds (chs : list choice_data) (R : nat -> nat -> Prop) (limits : list (N * N)) : Prop :=
  length limits = length chs /\
  forall c a b, nth_error limits c = Some (a, b) ->
    (forall c' cd, R c c' -> nth_error chs c' = Some cd -> (ch_min cd <= a /\ b <= ch_max cd)%N) /\
    (exists c' cd, R c c' /\ nth_error chs c' = Some cd /\ ch_min cd = a) /\
    (b = u32_max \/ exists c' cd, R c c' /\ nth_error chs c' = Some cd /\ ch_max cd = b).

Lemma limits_spec chs cs : (Z.of_nat (length chs) <= i32_max)%Z ->
  (forall a b, In (a, b) (same_pairs cs) -> a < length chs /\ b < length chs) -> (forall k, In k cs -> shaped k) ->
  exists limits, get_dependent_limits chs cs = Ok limits /\ shared_bounds chs (linked (same_pairs cs)) limits.
Proof.
  intros Hn HB HS. unfold get_dependent_limits. set (n := length chs) in *.
  destruct (uf_new_total n Hn) as [u0 Hu0]. rewrite Hu0; cbn [bind].
  destruct (join_same_total cs n HB HS u0 (uf_new_inv _ _ Hu0)) as [u Hu]. rewrite Hu; cbn [bind].
  apply join_same_ok in Hu. apply (uf_joins_conn _ _ _ _ _ (uf_new_conn _ _ Hu0)) in Hu. cbn [app] in Hu.
  destruct Hu as (HI & _ & HC).
  assert (HR : forall c c' g, c' < n -> root (uf_parents u) c g -> linked (same_pairs cs) c c' -> root (uf_parents u) c' g).
  { intros c c' g Hc' Hg HL. destruct (root_total n u c' HI Hc') as [g' Hg'].
    rewrite (proj2 (HC c c' g g' Hg Hg') HL). auto. }
  assert (HR' : forall c c' g, root (uf_parents u) c g -> root (uf_parents u) c' g -> linked (same_pairs cs) c c').
  { intros c c' g Hg Hg'. apply (HC c c' g g Hg Hg'). auto. }
  destruct (mfold_prefix (lim_inv chs u) (fun lim c =>
      let* g := uf_find u c in
      let* l := get lim g in
      let* cd := get chs c in
      set lim g (N.max (fst l) (ch_min cd), N.min (snd l) (ch_max cd))) (seq 0 n) (repeat (0%N, u32_max) n)) as (lim1 & E1 & HL1 & H1).
  { split; [apply repeat_length|]. intros g Hg. exists 0%N, u32_max. split.
    - rewrite (nth_error_nth' _ (0%N, u32_max)) by (rewrite repeat_length; auto). f_equal. apply nth_repeat.
    - repeat split; auto; contradiction. }
  { intros. eapply lim_step1; eauto. }
  rewrite E1. cbn [bind].
  destruct (mfold_prefix (copy_inv chs u lim1) (fun lim c => let* g := uf_find u c in let* l := get lim g in set lim c l)
              (seq 0 n) lim1) as (lim2 & E2 & HL2 & H2).
  { split; auto. } { intros. eapply lim_step2; eauto. }
  exists lim2. split; auto. split; auto.
  intros c a b Hc. pose proof (nth_error_lt _ _ _ Hc) as Hlt. rewrite HL2 in Hlt. fold n in Hlt.
  destruct (root_total n u c HI Hlt) as [g Hg]. destruct (root_lt n u c g HI Hg) as [_ Hgn].
  rewrite (H2 c g Hg) in Hc.
  assert (Ex : existsb (Nat.eqb c) (seq 0 n) = true).
  { apply existsb_exists. exists c. split; [apply in_seq; lia|apply Nat.eqb_refl]. }
  rewrite Ex in Hc. destruct (H1 g Hgn) as (a' & b' & Hn' & K1 & K2 & K3).
  rewrite Hn' in Hc. injection Hc as -> ->.
  assert (SQ : forall x, x < n -> In x (seq 0 n)) by (intros; apply in_seq; lia).
  split; [|split].
  - intros c' cd HL Hcd. pose proof (nth_error_lt _ _ _ Hcd) as Hlt'. apply (K1 c'); auto. apply (HR c c' g); auto.
  - destruct K2 as [->|(x & cd & _ & Hr & Hcd & E)].
    + destruct (nth_error chs c) as [cd|] eqn:Ecd; [|apply nth_error_None in Ecd; fold n in Ecd; lia].
      exists c, cd. split; [apply rst_refl|]. split; auto. destruct (K1 c cd (SQ c Hlt) Hg Ecd). lia.
    + exists x, cd. split; [apply (HR' c x g); auto|auto].
  - destruct K3 as [->|(x & cd & _ & Hr & Hcd & E)]; auto. right.
    exists x, cd. split; [apply (HR' c x g); auto|auto].
Qed.

(** ** Preferences *)
Lemma fold_min_le l : forall a, (fold_left N.min l a <= a)%N /\ (forall x, In x l -> (fold_left N.min l a <= x)%N) /\
  (fold_left N.min l a = a \/ In (fold_left N.min l a) l).
Proof.
  induction l as [|y l IH]; intros a; cbn [fold_left].
  - split; [lia|]. split; [intros x []|auto].
  - destruct (IH (N.min a y)) as (H1 & H2 & H3). split; [lia|]. split.
    + intros x [<-|Hx]; [lia|auto].
    + destruct H3 as [H3|H3]; [|right; right; auto]. rewrite H3.
      destruct (N.min_spec a y) as [[_ E]|[_ E]]; rewrite E; [auto|right; left; auto].
Qed.

Lemma set_many (g : list nat) (m : N) : forall row, (forall c, In c g -> c < length row) ->
  exists row', mfold (fun row c => set row c m) g row = Ok row' /\ length row' = length row /\
    forall c, nth_error row' c = if existsb (Nat.eqb c) g then Some m else nth_error row c.
Proof.
  induction g as [|c g IH]; intros row HB; cbn [mfold existsb].
  - exists row. auto.
  - rewrite set_some by (apply HB; left; auto). cbn [bind].
    destruct (IH (upd row c m)) as (row' & E & HL & HV).
    { intros x Hx. rewrite upd_length. apply HB; right; auto. }
    exists row'. rewrite upd_length in HL. split; auto. split; auto.
    intros x. rewrite HV. destruct (existsb (Nat.eqb x) g) eqn:Ex; [rewrite orb_true_r; auto|].
    rewrite orb_false_r. destruct (Nat.eqb_spec x c) as [->|Hne].
    + apply nth_error_upd_same. apply HB; left; auto.
    + apply nth_error_upd_other; auto.
Qed.

Lemma existsb_eqb c g : existsb (Nat.eqb c) g = true <-> In c g.
Proof.
  rewrite existsb_exists. split.
  - intros (x & Hx & E). apply Nat.eqb_eq in E. subst; auto.
  - intros H. exists c. split; auto. apply Nat.eqb_refl.
Qed.

Lemma group_min_spec row g : (forall c, In c g -> c < length row) ->
  exists row' m, group_min row g = Ok row' /\ length row' = length row /\
    (forall c, In c g -> nth_error row' c = Some m) /\
    (forall c, ~ In c g -> nth_error row' c = nth_error row c) /\
    (forall c x, In c g -> nth_error row c = Some x -> (m <= x)%N) /\
    (m = u32_max \/ exists c, In c g /\ nth_error row c = Some m).
Proof.
  intros HB. unfold group_min.
  destruct (mmap_ok (get row) g) as [vs Hvs].
  { intros c Hc. destruct (nth_error_ex row c (HB c Hc)) as [x Hx]. exists x. apply get_ok; auto. }
  rewrite Hvs; cbn [bind]. destruct (set_many g (fold_left N.min vs u32_max) row HB) as (row' & E & HL & HV).
  exists row', (fold_left N.min vs u32_max). destruct (fold_min_le vs u32_max) as (H1 & H2 & H3).
  split; auto. split; auto. split; [|split; [|split]].
  - intros c Hc. rewrite HV. rewrite (proj2 (existsb_eqb c g) Hc). auto.
  - intros c Hc. rewrite HV. destruct (existsb (Nat.eqb c) g) eqn:Ex; auto. apply existsb_eqb in Ex. contradiction.
  - intros c x Hc Hx. apply H2. destruct (mmap_in_fwd _ _ _ _ Hvs Hc) as (y & Hy & Ey). apply get_ok in Ey. congruence.
  - destruct H3 as [H3|H3]; auto. right. destruct (mmap_in _ _ _ _ Hvs H3) as (c & Hc & Ec). apply get_ok in Ec. eauto.
Qed.

(** One row: every choice gets the minimum over its group. *)
Definition row_min (R : nat -> nat -> Prop) (row row' : list N) : Prop :=
  length row' = length row /\
  forall c x, nth_error row' c = Some x ->
    (forall c' y, R c c' -> nth_error row c' = Some y -> (x <= y)%N) /\
    (exists c', R c c' /\ nth_error row c' = Some x).

Lemma row_min_spec n R gs row : is_groups n R gs -> (forall c, R c c) -> length row = n ->
  (forall x, In x row -> (x <= u32_max)%N) -> exists row', mfold group_min gs row = Ok row' /\ row_min R row row'.
Proof.
  intros HG HRR HL HU.
  destruct (mfold_prefix (fun pre row' => length row' = n /\
     (forall c, ~ In c (concat pre) -> nth_error row' c = nth_error row c) /\
     (forall g c x, In g pre -> In c g -> nth_error row' c = Some x ->
        (forall c' y, In c' g -> nth_error row c' = Some y -> (x <= y)%N) /\
        (exists c', In c' g /\ nth_error row c' = Some x))) group_min gs row) as (row' & E & HL' & H1 & H2).
  - split; auto. split; auto. intros g c x [].
  - intros pre g post r El (Hl & K1 & K2).
    assert (Hg : In g gs) by (rewrite El; apply in_or_app; right; left; auto).
    assert (Hpg : forall g', In g' pre -> In g' gs) by (intros; rewrite El; apply in_or_app; auto).
    assert (Hfresh : forall c, In c g -> ~ In c (concat pre)).
    { intros c Hc Hin. apply in_concat in Hin as (g' & Hg' & Hc').
      assert (g = g') as <- by (eapply (ig_one _ _ _ HG g g' c); eauto).
      pose proof (ig_nodup _ _ _ HG) as HN. rewrite El in HN. apply NoDup_remove_2 in HN. apply HN. apply in_or_app; auto. }
    destruct (group_min_spec r g) as (r' & m & Er & Hr1 & Hr2 & Hr3 & Hr4 & Hr5).
    { intros c Hc. rewrite Hl. eapply (ig_range _ _ _ HG); eauto. }
    exists r'. split; auto. split; [lia|]. split.
    + intros c Hc. rewrite concat_app, in_app_iff in Hc. cbn in Hc. rewrite app_nil_r in Hc.
      rewrite Hr3 by tauto. apply K1. tauto.
    + intros g' c x Hg' Hc Hx. apply in_app_or in Hg' as [Hg'|[<-|[]]].
      * assert (Hn : ~ In c g). { intros Hcg. apply (Hfresh c Hcg). apply in_concat. eauto. }
        rewrite Hr3 in Hx by auto. eapply K2; eauto.
      * rewrite (Hr2 c Hc) in Hx. injection Hx as <-. split.
        -- intros c' y Hc' Hy. apply (Hr4 c'); auto. rewrite K1 by auto. auto.
        -- destruct Hr5 as [->|(c' & Hc' & Hm)].
           ++ exists c. split; auto. assert (Hcl : c < length row) by (rewrite HL; eapply (ig_range _ _ _ HG); eauto).
              destruct (nth_error_ex row c Hcl) as [y Hy]. rewrite Hy. f_equal.
              assert ((u32_max <= y)%N). { apply (Hr4 c); auto. rewrite K1; auto. }
              pose proof (HU y (nth_error_In _ _ Hy)). lia.
           ++ exists c'. split; auto. rewrite <- K1; auto.
  - exists row'. split; auto. split; [congruence|].
    intros c x Hx. pose proof (nth_error_lt _ _ _ Hx) as Hlt. rewrite HL' in Hlt.
    destruct (ig_cover _ _ _ HG c Hlt) as (g & Hg & Hc). destruct (H2 g c x Hg Hc Hx) as [K1 (c1 & Hc' & K2)]. split.
    + intros c' y HR Hy. apply (K1 c'); auto. apply (ig_class _ _ _ HG g c c' Hg Hc). split; auto.
      apply nth_error_lt in Hy. lia.
    + exists c1. split; auto. apply (ig_class _ _ _ HG g c c1 Hg Hc) in Hc'. tauto.
Qed.

(** Zeroing by "chooser is in choice". *)
Lemma zero_spec cs nc np : (forall k, In k cs -> shaped k) ->
  (forall p o, In (p, o) (in_pairs cs) -> p < np /\ o < nc) ->
  forall prefs, length prefs = np -> (forall row, In row prefs -> length row = nc) ->
  exists prefs', mfold (fun prefs k =>
      if kind_eqb (c_kind k) ChooserIsInChoice then
        let* o := con_other_choice k in
        let* row := get prefs (c_left k) in
        let* row' := set row o 0%N in
        set prefs (c_left k) row'
      else Ok prefs) cs prefs = Ok prefs' /\ length prefs' = np /\
   (forall row, In row prefs' -> length row = nc) /\
   forall p row', nth_error prefs' p = Some row' -> exists row, nth_error prefs p = Some row /\
     forall c, (In (p, c) (in_pairs cs) -> nth_error row' c = Some 0%N) /\
               (~ In (p, c) (in_pairs cs) -> nth_error row' c = nth_error row c).
Proof.
  intros HS. induction cs as [|k cs IH] using rev_ind; intros HB prefs HL HR.
  - exists prefs. cbn. repeat split; auto. intros p row' Hr. exists row'. split; auto. intros c. split; auto. intros [].
  - assert (EP : in_pairs (cs ++ [k]) = in_pairs cs ++ in_pairs [k]) by (unfold in_pairs; rewrite flat_map_app; auto).
    destruct (IH (fun k Hk => HS k (in_or_app _ _ _ (or_introl Hk)))
                 (fun p o Hpo => HB p o ltac:(rewrite EP; apply in_or_app; auto)) prefs HL HR) as (prefs1 & E1 & L1 & R1 & V1).
    rewrite mfold_app, E1. cbn [bind mfold].
    assert (Hk : shaped k) by (apply HS; apply in_or_app; right; left; auto).
    destruct (kind_eqb (c_kind k) ChooserIsInChoice) eqn:EK.
    + apply kind_eqb_spec in EK. destruct k as [kk p0 t x]. cbn [c_kind] in EK. subst kk.
      unfold shaped in Hk; cbn in Hk. destruct t as [| |o| |]; try contradiction.
      unfold con_other_choice; cbn [c_right c_left bind].
      assert (Hin : In (p0, o) (in_pairs (cs ++ [mkC ChooserIsInChoice p0 (TChoice o) x]))).
      { rewrite EP. apply in_or_app. right. left; auto. }
      destruct (HB _ _ Hin) as [Hp0 Ho].
      destruct (nth_error prefs1 p0) as [row|] eqn:Er; [|apply nth_error_None in Er; lia].
      rewrite (get_some _ _ _ Er). cbn [bind]. pose proof (R1 _ (nth_error_In _ _ Er)) as Hrl.
      rewrite set_some by lia. cbn [bind]. rewrite set_some by lia. cbn [bind].
      eexists; split; [reflexivity|]. split; [rewrite upd_length; auto|]. split.
      * intros r Hr. apply In_nth_error in Hr as [j Hj]. rewrite nth_error_upd in Hj.
        destruct (Nat.eqb_spec p0 j) as [Ej|Ej]; [subst j|].
        -- destruct (Nat.ltb_spec p0 (length prefs1)); [|discriminate]. injection Hj as <-. rewrite upd_length; auto.
        -- apply R1. eapply nth_error_In; eauto.
      * intros p row' Hr. rewrite nth_error_upd in Hr. destruct (Nat.eqb_spec p0 p) as [Ep|Hne]; [subst p|].
        -- destruct (Nat.ltb_spec p0 (length prefs1)); [|discriminate]. injection Hr as <-.
           destruct (V1 _ _ Er) as (row0 & Hrow0 & HV). exists row0. split; auto.
           intros c. rewrite EP. cbn [in_pairs flat_map c_kind c_right c_left app].
           rewrite nth_error_upd. destruct (Nat.eqb_spec o c) as [<-|Hoc].
           ++ destruct (Nat.ltb_spec o (length row)); [|lia]. split; auto. intros Hn. exfalso. apply Hn.
              apply in_or_app; right; left; auto.
           ++ rewrite in_app_iff. cbn [In]. destruct (HV c) as [V2 V3]. split.
              ** intros [Hi|[Hi|[]]]; auto. congruence.
              ** intros Hn. apply V3. tauto.
        -- destruct (V1 _ _ Hr) as (row0 & Hrow0 & HV). exists row0. split; auto.
           intros c. rewrite EP. cbn [in_pairs flat_map c_kind c_right c_left app]. rewrite in_app_iff. cbn [In].
           destruct (HV c) as [V2 V3]. split.
           ++ intros [Hi|[Hi|[]]]; auto. congruence.
           ++ intros Hn. apply V3. tauto.
    + cbn [bind]. exists prefs1. split; auto. split; auto. split; auto.
      assert (E0 : in_pairs [k] = []).
      { unfold in_pairs; cbn [flat_map]. destruct k as [kk a t x]; cbn [c_kind] in *. destruct kk; try reflexivity. discriminate EK. }
      rewrite EP, E0, app_nil_r. auto.
Qed.

(** ** Lookup tables *)
Definition mentions (c : nat) (k : constraint) : bool :=
  match c_kind k, c_right k with
  | ChoiceIsInSlot, _ | ChoiceIsNotInSlot, _ => c_left k =? c
  | ChoicesAreInSameSlot, TChoice o | ChoicesAreNotInSameSlot, TChoice o | ChoicesHaveOffset, TChoice o =>
      (c_left k =? c) || (o =? c)
  | SlotHasLimitedSize, _ => true
  | _, _ => false
  end.

Lemma push_at_spec m i k : i < length m ->
  exists m', push_at m i k = Ok m' /\ length m' = length m /\
    forall c l, nth_error m c = Some l -> nth_error m' c = Some (if c =? i then l ++ [k] else l).
Proof.
  intros Hi. unfold push_at. destruct (nth_error_ex m i Hi) as [l Hl]. rewrite (get_some _ _ _ Hl). cbn [bind].
  rewrite set_some by auto. eexists; split; [reflexivity|]. split; [apply upd_length|].
  intros c l' Hc. rewrite nth_error_upd. rewrite (Nat.eqb_sym i c). destruct (Nat.eqb_spec c i) as [->|].
  - destruct (Nat.ltb_spec i (length m)); [|lia]. congruence.
  - auto.
Qed.

Lemma push_all_spec k : forall l m, (forall i, In i l -> i < length m) ->
  exists m', mfold (fun m i => push_at m i k) l m = Ok m' /\ length m' = length m /\
    forall c x, nth_error m c = Some x -> exists x', nth_error m' c = Some x' /\
      (forall k', In k' x' <-> In k' x \/ (k' = k /\ In c l)).
Proof.
  induction l as [|i l IH]; intros m HB; cbn [mfold].
  - exists m. split; auto. split; auto. intros c x Hx. exists x. split; auto. intros k'. cbn. tauto.
  - destruct (push_at_spec m i k) as (m1 & E1 & L1 & V1); [apply HB; left; auto|]. rewrite E1. cbn [bind].
    destruct (IH m1) as (m2 & E2 & L2 & V2). { intros j Hj. rewrite L1. apply HB; right; auto. }
    exists m2. split; auto. split; [congruence|]. intros c x Hx.
    destruct (V2 c _ (V1 c x Hx)) as (x' & Hx' & HI). exists x'. split; auto.
    intros k'. rewrite HI. destruct (Nat.eqb_spec c i) as [->|Hne].
    + rewrite in_app_iff. cbn. intuition congruence.
    + cbn. intuition congruence.
Qed.

Lemma map_one_spec nc ns np cm k : length cm = nc -> indexed nc ns np k -> (kind_code (c_kind k) <? 65536)%N = true ->
  match c_kind k with SlotContainsChoice | SlotNotContainsChoice | SlotsHaveSameChoices
                       | ChoiceContainsChooser | ChoiceNotContainsChooser | Invalid => False | _ => True end ->
  forall pm, exists cm', map_one nc np (cm, pm) k = Ok (cm', pm) /\ length cm' = nc /\
    forall c x, nth_error cm c = Some x -> exists x', nth_error cm' c = Some x' /\
      forall k', In k' x' <-> In k' x \/ (k' = k /\ mentions c k = true).
Proof.
  intros HL HI HK HR pm. destruct k as [kk a t x]. unfold indexed in HI. cbn [c_kind c_left c_right c_extra] in *.
  unfold map_one, mentions; cbn [c_kind c_left c_right].
  assert (Push1 : forall k i, i < nc -> exists cm', (let* cm := push_at cm i k in Ok (cm, pm)) = Ok (cm', pm) /\ length cm' = nc /\
    forall c x, nth_error cm c = Some x -> exists x', nth_error cm' c = Some x' /\
      forall k', In k' x' <-> In k' x \/ (k' = k /\ (i =? c) = true)).
  { intros k i Hi. destruct (push_at_spec cm i k) as (m1 & E1 & L1 & V1); [lia|]. rewrite E1. cbn [bind].
    exists m1. split; auto. split; [congruence|]. intros c y Hy. eexists; split; [apply V1; eauto|].
    intros k'. rewrite (Nat.eqb_sym i c). destruct (Nat.eqb_spec c i); [rewrite in_app_iff; cbn; intuition|intuition congruence]. }
  assert (Push2 : forall k i o, i < nc -> o < nc -> exists cm', (let* cm := push_at cm i k in let* cm := push_at cm o k in Ok (cm, pm)) = Ok (cm', pm) /\ length cm' = nc /\
    forall c x, nth_error cm c = Some x -> exists x', nth_error cm' c = Some x' /\
      forall k', In k' x' <-> In k' x \/ (k' = k /\ ((i =? c) || (o =? c)) = true)).
  { intros k i o Hi Ho. destruct (push_at_spec cm i k) as (m1 & E1 & L1 & V1); [lia|]. rewrite E1. cbn [bind].
    destruct (push_at_spec m1 o k) as (m2 & E2 & L2 & V2); [lia|]. rewrite E2. cbn [bind].
    exists m2. split; auto. split; [congruence|]. intros c y Hy. eexists; split; [apply V2; apply V1; eauto|].
    intros k'. rewrite (Nat.eqb_sym i c), (Nat.eqb_sym o c).
    destruct (Nat.eqb_spec c i), (Nat.eqb_spec c o); rewrite ?in_app_iff; cbn; intuition congruence. }
  destruct kk; try contradiction; try discriminate HK; destruct t; try contradiction;
    try (apply Push1; tauto); try (apply Push2; tauto).
  - destruct x; try contradiction. apply Push2; tauto.
  - destruct x; try contradiction.
    destruct (push_all_spec (mkC SlotHasLimitedSize a (TLimit n) (EOp o)) (seq 0 nc) cm) as (m & E & L & V).
    { intros i Hi. apply in_seq in Hi. lia. }
    rewrite E. cbn [bind]. exists m. split; auto. split; [congruence|]. intros c y Hy.
    destruct (V c y Hy) as (y' & Hy' & HI'). exists y'. split; auto. intros k'. rewrite HI'.
    assert (In c (seq 0 nc)). { apply in_seq. apply nth_error_lt in Hy. lia. } tauto.
Qed.

Lemma build_maps_spec nc ns np sched :
  (forall k, In k sched -> indexed nc ns np k /\
    match c_kind k with SlotContainsChoice | SlotNotContainsChoice | SlotsHaveSameChoices
                       | ChoiceContainsChooser | ChoiceNotContainsChooser | Invalid => False | _ => True end /\
    (kind_code (c_kind k) <? 65536)%N = true) ->
  exists cm, build_maps nc np sched = Ok (cm, repeat [] np) /\ length cm = nc /\
    forall c x, nth_error cm c = Some x -> forall k, In k x <-> In k sched /\ mentions c k = true.
Proof.
  intros H. unfold build_maps.
  destruct (mfold_prefix (fun pre ms => snd ms = repeat [] np /\ length (fst ms) = nc /\
     forall c x, nth_error (fst ms) c = Some x -> forall k, In k x <-> In k pre /\ mentions c k = true)
     (map_one nc np) sched (repeat [] nc, repeat [] np)) as ([cm pm] & E & E1 & E2 & E3).
  - cbn. split; auto. split; [apply repeat_length|]. intros c x Hx. apply nth_error_In, repeat_spec in Hx. subst.
    intros k. cbn. tauto.
  - intros pre k post [cm pm] Es (E1 & E2 & E3). cbn in E1, E2, E3. subst pm.
    destruct (H k) as (HI & HR & HK). { rewrite Es. apply in_or_app; right; left; auto. }
    destruct (map_one_spec nc ns np cm k E2 HI HK HR (repeat [] np)) as (cm' & Em & Lm & Vm).
    eexists; split; [exact Em|]. cbn [fst snd]. split; auto. split; auto.
    intros c x Hx. destruct (nth_error_ex cm c) as [y Hy]. { rewrite E2. apply nth_error_lt in Hx. lia. }
    destruct (Vm c y Hy) as (x' & Hx' & HI'). assert (x' = x) by congruence. subst x'.
    intros k'. rewrite HI', (E3 c y Hy), in_app_iff. cbn. intuition congruence.
  - cbn in E1, E2, E3. subst pm. exists cm. auto.
Qed.
