(** Sleeping and the islands. *)
From Coq Require Import ZArith List Bool Lia Permutation.
From Verif Require Import Num Outcome Box Mat Geom Transform Body Constraint World WorldHoare WorldInv WorldFrame WorldIsland WorldSolve WorldComp.
Import ListNotations.

Section Sleep.
Context {N : Num} {TR : Trig N} {BH : Behaviour N}.
Hypothesis T : tame.

(** one island, keeping an invariant of its growth *)
Record shape (root : id) (w : world) (il : island) (w1 : world) : Prop := {
  sh_root : In root (is_bodies il); sh_kept : kept w w1; sh_log : w_log w1 = w_log w }.
Lemma solve_one_simple (P : island -> Prop) fuel s dt aw todo root l w :
  (forall il il', P il -> (is_awake il = true -> is_awake il' = true) -> (is_awake il' = true -> is_awake il = true \/ exists b, awake_at w b) -> P il') ->
  (forall y, w_bh w root = Some y -> P (push (Isl [] [] [] [] [] aw) root y)) ->
  SInv w -> quiet_ids w -> todo = l ++ [root] -> incl todo (w_bodies w) -> length (w_bodies w) <= fuel ->
  wp (solve_one fuel s dt aw todo root) (fun r w' => exists il w1, base il w1 /\ shape root w il w1 /\ P il /\ solved (fun _ _ => True) il w1 w' /\
     SInv w' /\ quiet_ids w' /\ same w w' /\
     r = (filter (fun i => negb (existsb (Nat.eqb i) (is_bodies il))) todo, is_awake il) /\ incl (fst r) todo /\ length (fst r) < length todo) w.
Proof.
  intros HP HP0 S Qt Et HI HF. assert (Hroot : In root todo) by (rewrite Et; apply in_or_app; right; left; reflexivity).
  assert (Hl : exists y, w_bh w root = Some y) by (apply (i_bodies _ S), HI, Hroot). destruct Hl as [y Ey].
  pose (Y := fun (cur : nat) (il : island) (w1 : world) => shape root w il w1 /\ P il).
  pose (X := fun (cur : nat) (r : id) (d : list id) (il : island) (w1 : world) => shape root w il w1 /\ P il).
  eapply wp_mono.
  - apply (solve_one_wp T (fun _ _ => True) (fun il w1 => Y (length (is_bodies il)) il w1)); auto; try (intros ?; intros; exact I).
    apply (init_wp T Y X) with (y := y); auto.
    + intros cur r d c contact il w1 il' w' x v new B [HS HPi] Ex _ _ A. split.
      * destruct HS as [H1 H2 H3]. constructor.
        { rewrite (a_bodies _ _ _ _ _ _ _ _ _ A). apply in_or_app. auto. }
        { eapply kept_trans; [exact H2|apply (a_kept _ _ _ _ _ _ _ _ _ A)]. }
        { rewrite (a_log _ _ _ _ _ _ _ _ _ A). exact H3. }
      * apply (HP il il' HPi (a_awake _ _ _ _ _ _ _ _ _ A)). intros Ha. destruct (a_awake' _ _ _ _ _ _ _ _ _ A Ha) as [H|(b & _ & H)]; [auto|]. right. exists b. eapply awake_kept; [apply (sh_kept _ _ _ _ HS)|exact H].
    + intros w' Kp Sm Ech Elog B. split; [|apply HP0, Ey]. constructor; auto. left. reflexivity.
  - intros r w' _ (il & w1 & B1 & S1 & [HS HPi] & SV & ->). destruct (solved_end _ _ _ _ SV) as (Si' & Qt' & S1' & Elog). exists il, w1.
    split; [exact B1|]. split; [exact HS|]. split; [exact HPi|]. split; [exact SV|]. split; [exact Si'|]. split; [exact Qt'|]. split; [eapply same_trans; eassumption|]. split; [reflexivity|].
    cbn [fst]. split; [intros b Hb; apply filter_In in Hb; tauto|apply filter_shorter with root; [assumption|apply (sh_root _ _ _ _ HS)]].
Qed.
(** what a solve does to the sleep flag *)
Lemma solved_asleep il w1 w' b y' : base il w1 -> solved (fun _ _ => True) il w1 w' -> w_bh w' b = Some y' ->
  exists y, w_bh w1 b = Some y /\ b_asleep (wb y') = (if is_awake il && existsb (Nat.eqb b) (is_bodies il) then false else b_asleep (wb y)).
Proof.
  intros B1 [(w2 & il3 & w3 & w4 & HW & B2 & S2 & V & _ & D & ->)] E'. cbn in E'.
  assert (E2 : exists y2, w_bh w2 b = Some y2 /\ b_asleep (wb y') = b_asleep (wb y2)).
  { destruct (in_dec Nat.eq_dec b (is_bodies il)) as [Hb|Hb].
    - destruct (ii_live _ _ (proj2 B2) b Hb) as [y2 E2]. exists y2. split; [exact E2|]. destruct (In_nth_error _ _ Hb) as [n Hn]. rewrite <- (so_b _ _ _ _ V) in Hn.
      destruct (d_in _ _ _ D n b y2 Hn) as (p & v & _ & _ & Ef); [rewrite (so_bh _ _ _ _ V); exact E2|]. rewrite Ef in E'. injection E' as <-. reflexivity.
    - rewrite (d_out _ _ _ D) in E' by (rewrite (so_b _ _ _ _ V); exact Hb). rewrite (so_bh _ _ _ _ V) in E'. eauto. }
  destruct E2 as (y2 & E2 & Ea). destruct HW as (_ & _ & HW). rewrite HW in E2. destruct (is_awake il && existsb (Nat.eqb b) (is_bodies il)).
  - destruct (w_bh w1 b) as [y|]; [|discriminate]. injection E2 as <-. exists y. split; [reflexivity|exact Ea].
  - exists y2. auto.
Qed.

(** no awake body, no waking *)
Lemma all_asleep fuel1 fuel2 s dt w : SInv w -> quiet_ids w -> length (w_bodies w) <= fuel1 -> length (w_bodies w) <= fuel2 ->
  (forall b, ~ awake_at w b) -> wp (solve_islands fuel1 fuel2 s dt false (w_bodies w)) (fun _ w' => forall b, ~ awake_at w' b) w.
Proof.
  intros S Qt H1 H2 HA. eapply wp_mono.
  - apply (solve_islands_wp (fun _ aw w' => aw = false /\ forall b, ~ awake_at w' b)); auto using incl_refl.
    intros aw todo root l w1 S1 Q1 [-> HA1] Et HI HF. eapply wp_mono.
    + apply (solve_one_simple (fun il => is_awake il = false) fuel2 s dt false todo root l w1); auto.
      * intros il il' E _ H. destruct (is_awake il'); [|reflexivity]. destruct (H eq_refl) as [H'|[b H']]; [congruence|exfalso; eapply HA1; eassumption].
      * intros y Ey. cbn. destruct (b_asleep (wb y)) eqn:E; [reflexivity|]. exfalso. apply (HA1 root). exists y. auto.
    + intros r w' _ (il & w2 & B & HS & HP & SV & Si & Qi & Sm & -> & HI' & HL). cbn [fst snd] in *. split; [exact Si|]. split; [exact Qi|]. split; [exact Sm|]. split; [|auto]. split; [exact HP|].
      intros b (y' & E' & Ea). destruct (solved_asleep _ _ _ _ _ B SV E') as (y & E & Ey). rewrite HP in Ey. cbn in Ey. apply (HA1 b). eapply awake_kept; [apply (sh_kept _ _ _ _ HS)|]. exists y. split; congruence.
  - intros u w' _ (_ & _ & _ & aw' & _ & H). exact H.
Qed.
(** once the flag is set every body that is still to be solved is woken *)
Lemma leak_all fuel1 fuel2 s dt todo w : SInv w -> quiet_ids w -> incl todo (w_bodies w) -> length (w_bodies w) <= fuel2 -> length todo <= fuel1 ->
  wp (solve_islands fuel1 fuel2 s dt true todo) (fun _ w' => forall b, In b todo \/ awake_at w b -> awake_at w' b) w.
Proof.
  intros S Qt HI H1 H2. eapply wp_mono.
  - apply (solve_islands_wp (fun td aw w' => aw = true /\ forall b, (In b todo /\ ~ In b td) \/ awake_at w b -> awake_at w' b)); auto; [|split; [reflexivity|]; intros b [[HA HB]|H]; tauto].
    intros aw td root l w1 S1 Q1 [-> HA1] Et HI1 HF. eapply wp_mono.
    + apply (solve_one_simple (fun il => is_awake il = true) fuel2 s dt true td root l w1); auto.
    + intros r w' _ (il & w2 & B & HS & HP & SV & Si & Qi & Sm & -> & HI' & HL). cbn [fst snd] in *. split; [exact Si|]. split; [exact Qi|]. split; [exact Sm|]. split; [|auto]. split; [exact HP|].
      assert (HK : forall b, (In b (is_bodies il) \/ awake_at w1 b) -> awake_at w' b).
      { intros b Hb. assert (Hl : exists y', w_bh w' b = Some y').
        { apply (hrel_live _ _ _ _ (sa_b _ _ Sm)). destruct Hb as [Hb|(y & E & _)]; [|eauto].
          destruct (ii_live _ _ (proj2 B) b Hb) as [y E]. pose proof (sh_kept _ _ _ _ HS b) as Kp. rewrite E in Kp. destruct (w_bh w1 b); [eauto|discriminate]. }
        destruct Hl as [y' E']. exists y'. split; [exact E'|]. destruct (solved_asleep _ _ _ _ _ B SV E') as (y & E & ->). rewrite HP. cbn [andb].
        destruct (existsb (Nat.eqb b) (is_bodies il)) eqn:EX; [reflexivity|]. destruct Hb as [Hb|(y1 & E1 & Ha)]; [apply existsb_notin in EX; contradiction|].
        pose proof (sh_kept _ _ _ _ HS b) as Kp. rewrite E, E1 in Kp. injection Kp as ->. exact Ha. }
      intros b Hb. apply HK. destruct (in_dec Nat.eq_dec b (is_bodies il)) as [Hi|Hi]; [auto|]. right. apply HA1. destruct Hb as [[Hb1 Hb2]|Hb]; [left|right; exact Hb].
      split; [exact Hb1|]. intros Hb3. apply Hb2. apply filter_In. split; [exact Hb3|]. apply negb_true_iff, existsb_notin. exact Hi.
  - intros u w' _ (_ & _ & _ & aw' & _ & H) b Hb. apply H. destruct Hb; [left|right]; auto.
Qed.
(** the island of the last body of the list is solved first *)
Lemma last_awake fuel1 fuel2 s dt l root w : SInv w -> quiet_ids w -> w_bodies w = l ++ [root] -> awake_at w root -> length (w_bodies w) <= fuel1 -> length (w_bodies w) <= fuel2 ->
  wp (solve_islands fuel1 fuel2 s dt false (w_bodies w)) (fun _ w' => forall b, In b (w_bodies w) -> awake_at w' b) w.
Proof.
  intros S Qt El (yr & Er & Ha) H1 H2. destruct fuel1 as [|f1]; [rewrite El, app_length in H1; cbn in H1; lia|]. cbn [solve_islands]. rewrite El at 1. rewrite rev_app_distr. cbn [rev app].
  apply wp_bind. eapply wp_mono.
  - apply (solve_one_simple (fun il => is_awake il = true) fuel2 s dt false (w_bodies w) root l w); auto using incl_refl.
    intros y Ey. rewrite Er in Ey. injection Ey as <-. cbn. rewrite Ha. reflexivity.
  - intros r w1 _ (il & w2 & B & HS & HP & SV & Si & Qi & Sm & -> & HI' & HL). cbn [fst snd] in *. rewrite HP. eapply wp_mono.
    + apply (leak_all f1 fuel2 s dt _ w1 Si Qi); [intros b Hb; rewrite (sa_bodies _ _ Sm); apply HI', Hb|rewrite (sa_bodies _ _ Sm); exact H2|lia].
    + intros u w' _ H b Hb. apply H. destruct (in_dec Nat.eq_dec b (is_bodies il)) as [Hi|Hi].
      * right. assert (Hl : exists y', w_bh w1 b = Some y') by (apply (hrel_live _ _ _ _ (sa_b _ _ Sm)), (i_bodies _ S), Hb). destruct Hl as [y' E']. exists y'. split; [exact E'|].
        destruct (solved_asleep _ _ _ _ _ B SV E') as (y & E & ->). rewrite HP, (proj2 (existsb_in b (is_bodies il)) Hi). reflexivity.
      * left. apply filter_In. split; [exact Hb|]. apply negb_true_iff, existsb_notin. exact Hi.
Qed.

(** ** Which bodies are woken *)
(** one island: it is woken exactly when the flag was set, a body of it was awake, or
    perhaps when a constraint or contact of it (active or not) has an awake end *)
Definition beside (w : world) (bs : list id) (b : id) : Prop := exists c x a, w_ch w c = Some x /\ In a bs /\ In a (con_bodies x) /\ In b (con_bodies x).
Record stirs (root : id) (aw : bool) (w : world) (il : island) (w1 : world) : Prop := {
  si_shape : shape root w il w1; si_ch : hrel con_same (w_ch w) (w_ch w1);
  si_on : aw = true \/ (exists b, In b (is_bodies il) /\ awake_at w b) -> is_awake il = true;
  si_off : is_awake il = true -> aw = true \/ exists b, awake_at w b /\ (In b (is_bodies il) \/ beside w (is_bodies il) b) }.
Lemma kept_awake w w' b : kept w w' -> awake_at w b -> awake_at w' b.
Proof. intros H (y & E & A). destruct (kept_some _ _ _ _ H E) as (y' & E' & Ew). exists y'. split; [exact E'|]. congruence. Qed.
Lemma solve_one_stirs fuel s dt aw todo root l w : SInv w -> quiet_ids w -> todo = l ++ [root] -> incl todo (w_bodies w) -> length (w_bodies w) <= fuel ->
  wp (solve_one fuel s dt aw todo root) (fun r w' => exists il w1, base il w1 /\ stirs root aw w il w1 /\ solved (fun _ _ => True) il w1 w' /\
     SInv w' /\ quiet_ids w' /\ same w w' /\ w_log w' = w_log w ++ [Solved (is_bodies il) (is_cons il) (is_cts il)] /\
     r = (filter (fun i => negb (existsb (Nat.eqb i) (is_bodies il))) todo, is_awake il) /\ incl (fst r) todo /\ length (fst r) < length todo) w.
Proof.
  intros S Qt Et HI HF. assert (Hroot : In root todo) by (rewrite Et; apply in_or_app; right; left; reflexivity).
  assert (Hl : exists y, w_bh w root = Some y) by (apply (i_bodies _ S), HI, Hroot). destruct Hl as [y Ey].
  pose (Y := fun (cur : nat) (il : island) (w1 : world) => stirs root aw w il w1).
  pose (X := fun (cur : nat) (r : id) (d : list id) (il : island) (w1 : world) => stirs root aw w il w1 /\ In r (is_bodies il)).
  eapply wp_mono.
  - apply (solve_one_wp T (fun _ _ => True) (fun il w1 => Y (length (is_bodies il)) il w1)); auto; try (intros ?; intros; exact I).
    apply (init_wp T Y X) with (y := y); auto.
    + intros cur r il w1 B HY Hn _. split; [exact HY|eapply nth_error_In, Hn].
    + intros cur r d c contact il w1 il' w' x v new B [HS Hr] Ex Hrx _ A. destruct HS as [[H1 H2 H3] HC Hon Hoff].
      assert (KW : forall b, awake_at w1 b <-> awake_at w b) by (intros b; split; [apply awake_kept|apply kept_awake]; exact H2).
      assert (HB : forall b, In b (is_bodies il) -> In b (is_bodies il')) by (intros b Hb; rewrite (a_bodies _ _ _ _ _ _ _ _ _ A); apply in_or_app; auto).
      split; [|apply HB, Hr]. constructor.
      * constructor; [apply HB, H1|eapply kept_trans; [exact H2|apply (a_kept _ _ _ _ _ _ _ _ _ A)]|rewrite (a_log _ _ _ _ _ _ _ _ _ A); exact H3].
      * eapply hrel_trans; [exact con_same_trans|exact HC|apply (sa_c _ _ (a_same _ _ _ _ _ _ _ _ _ A))].
      * intros H. assert (HH : is_awake il = true \/ exists b, In b new /\ awake_at w1 b).
        { destruct H as [H|(b & Hb & H)]; [left; apply Hon; auto|]. rewrite (a_bodies _ _ _ _ _ _ _ _ _ A) in Hb. apply in_app_iff in Hb. destruct Hb as [Hb|Hb]; [left; apply Hon; eauto|right; exists b; rewrite KW; auto]. }
        destruct HH as [HH|(b & Hb & HH)]; [apply (a_awake _ _ _ _ _ _ _ _ _ A HH)|apply (a_stir _ _ _ _ _ _ _ _ _ A b Hb HH)].
      * intros H. destruct (a_awake' _ _ _ _ _ _ _ _ _ A H) as [H'|(b & Hb & H')].
        { destruct (Hoff H') as [?|(b & Hb & Hc)]; [auto|]. right. exists b. split; [exact Hb|]. destruct Hc as [Hc|(c' & x' & a & Q1 & Q2 & Q3)]; [left; auto|right]. exists c', x', a. auto. }
        { right. exists b. split; [apply KW, H'|]. right. destruct (hrel_some' _ _ _ _ _ HC Ex) as (x0 & Ex0 & CS). exists c, x0, r. rewrite <- (con_same_bodies _ _ CS). split; [exact Ex0|]. split; [apply HB, Hr|]. split; [exact Hrx|]. apply in_bodies, Hb. }
    + intros cur r y0 il w1 B Ey0 [HX _]. exact HX.
    + intros w' Kp Sm Ech Elog B. constructor.
      * constructor; auto. left. reflexivity.
      * rewrite Ech. apply hrel_refl. exact con_same_refl.
      * cbn. intros [->|(b & [<-|[]] & (z & Ez & Az))]; [reflexivity|]. rewrite Ey in Ez. injection Ez as <-. rewrite Az. apply orb_true_r.
      * cbn. intros H. apply orb_true_iff in H. destruct H as [H|H]; [auto|]. right. exists root. split; [|left; left; reflexivity]. exists y. split; [exact Ey|]. apply negb_true_iff, H.
  - intros r w' _ (il & w1 & B1 & S1 & HS & SV & ->). destruct (solved_end _ _ _ _ SV) as (Si' & Qt' & S1' & Elog). exists il, w1.
    split; [exact B1|]. split; [exact HS|]. split; [exact SV|]. split; [exact Si'|]. split; [exact Qt'|]. split; [eapply same_trans; eassumption|].
    split; [rewrite Elog, (sh_log _ _ _ _ (si_shape _ _ _ _ _ HS)); reflexivity|]. split; [reflexivity|].
    cbn [fst]. split; [intros b Hb; apply filter_In in Hb; tauto|apply filter_shorter with root; [assumption|apply (sh_root _ _ _ _ (si_shape _ _ _ _ _ HS))]].
Qed.

(** [i] is solved before [j], or is [j] *)
Definition before (L : list isl) (i j : isl) : Prop := exists pre post, L = pre ++ i :: post /\ In j (i :: post).
Lemma before_in L i j : before L i j -> In i L /\ In j L.
Proof. intros (pre & post & -> & H). split; apply in_or_app; right; [left; reflexivity|exact H]. Qed.
Lemma before_snoc L k i j : before (L ++ [k]) i j <-> before L i j \/ (j = k /\ In i (L ++ [k])).
Proof.
  split.
  - intros (pre & post & E & H). destruct (exists_last (l := i :: post)) as (q & z & Eq); [discriminate|]. rewrite Eq, app_assoc in E. apply app_inj_tail in E. destruct E as [-> <-].
    rewrite Eq in H. destruct q as [|i' q].
    + cbn in Eq. injection Eq as <- ->. destruct H as [<-|[]]. right. split; [reflexivity|]. apply in_or_app. right. left. reflexivity.
    + cbn in Eq. injection Eq as <- ->. apply in_app_iff in H. destruct H as [H|[<-|[]]]; [left; exists pre, q; auto|right]. split; [reflexivity|]. rewrite <- app_assoc. apply in_or_app. right. left. reflexivity.
  - intros [(pre & post & -> & H)|[-> H]].
    + exists pre, (post ++ [k]). split; [rewrite <- app_assoc; reflexivity|]. change (In j ((i :: post) ++ [k])). apply in_or_app. auto.
    + apply in_app_iff in H. destruct H as [H|[->|[]]].
      * apply in_split in H. destruct H as (a & b & ->). exists a, (b ++ [k]). rewrite <- app_assoc. split; [reflexivity|]. right. apply in_or_app. right. left. reflexivity.
      * exists L, []. split; [reflexivity|left; reflexivity].
Qed.
Definition lively (w : world) (bs : list id) : Prop := exists b, In b bs /\ awake_at w b.
Definition nudged (w : world) (bs : list id) : Prop := exists b, awake_at w b /\ (In b bs \/ beside w bs b).
Record waking (w w' : world) (L : list isl) : Prop := {
  wk_log : w_log w' = w_log w ++ map event_of L;
  wk_keep : forall b, awake_at w b -> awake_at w' b;
  wk_on : forall i j b, before L i j -> lively w (i_bs i) -> In b (i_bs j) -> awake_at w' b;
  wk_off : forall b, awake_at w' b -> awake_at w b \/ exists i j, before L i j /\ nudged w (i_bs i) /\ In b (i_bs j) }.
Lemma lively_nudged w bs : lively w bs -> nudged w bs.
Proof. intros (b & H1 & H2). exists b. auto. Qed.
Theorem islands_waking fuel1 fuel2 s dt w : SInv w -> quiet_ids w -> length (w_bodies w) <= fuel1 -> length (w_bodies w) <= fuel2 ->
  wp (solve_islands fuel1 fuel2 s dt false (w_bodies w)) (fun _ w' => exists L, waking w w' L /\ forall b, In b (w_bodies w) -> exists i, In i L /\ In b (i_bs i)) w.
Proof.
  intros S Qt H1 H2. eapply wp_mono.
  - apply (solve_islands_wp (fun todo aw w' => same w w' /\ exists L, waking w w' L /\ (forall b, In b (w_bodies w) -> In b todo \/ exists i, In i L /\ In b (i_bs i)) /\
      (aw = true -> exists i, In i L /\ nudged w (i_bs i)) /\ (aw = false -> (forall b, awake_at w' b -> awake_at w b) /\ forall i, In i L -> ~ lively w (i_bs i)))); auto using incl_refl.
    2:{ split; [apply same_refl|]. exists []. split; [|split; [|split; [discriminate|]]]; auto.
        - constructor; auto; [rewrite app_nil_r; reflexivity|]. intros i j b Hb. apply before_in in Hb. destruct Hb as [[] _]. }
    intros aw todo root l w1 S1 Q1 (Sm1 & L & [KL KK KN KF] & HT & Hon & Hoff) Et HI HF. eapply wp_mono.
    + apply (solve_one_stirs fuel2 s dt aw todo root l w1); auto.
    + intros r w' _ (il & w2 & B & [HS HC Son Soff] & SV & Si & Qi & Sm & El & -> & HI' & HL). cbn [fst snd] in *.
      split; [exact Si|]. split; [exact Qi|]. split; [exact Sm|]. split; [|auto]. split; [eapply same_trans; eassumption|].
      set (i0 := IS (is_bodies il) (is_cons il) (is_cts il)).
      assert (HA : forall b, awake_at w' b <-> awake_at w1 b \/ (is_awake il = true /\ In b (is_bodies il))).
      { intros b. split.
        - intros (y' & E' & Ea). destruct (solved_asleep _ _ _ _ _ B SV E') as (y & E & Ey). rewrite Ea in Ey. destruct (is_awake il) eqn:EA; cbn [andb] in Ey.
          + destruct (existsb (Nat.eqb b) (is_bodies il)) eqn:EX; [right; split; [reflexivity|apply existsb_in, EX]|]. left. eapply awake_kept; [apply (sh_kept _ _ _ _ HS)|]. exists y. auto.
          + left. eapply awake_kept; [apply (sh_kept _ _ _ _ HS)|]. exists y. auto.
        - intros H. assert (Hl : exists y', w_bh w' b = Some y').
          { apply (hrel_live _ _ _ _ (sa_b _ _ Sm)). destruct H as [(y & E & _)|[_ Hb]]; [eauto|].
            destruct (ii_live _ _ (proj2 B) b Hb) as [y E]. pose proof (sh_kept _ _ _ _ HS b) as Kp. rewrite E in Kp. destruct (w_bh w1 b); [eauto|discriminate]. }
          destruct Hl as [y' E']. exists y'. split; [exact E'|]. destruct (solved_asleep _ _ _ _ _ B SV E') as (y & E & ->).
          destruct H as [H|[-> Hb]]; [|rewrite (proj2 (existsb_in b (is_bodies il)) Hb); reflexivity].
          apply (kept_awake _ _ _ (sh_kept _ _ _ _ HS)) in H. destruct H as (y1 & E1 & Ha). assert (y1 = y) by congruence. subst y1. rewrite Ha. destruct (is_awake il && existsb (Nat.eqb b) (is_bodies il)); reflexivity. }
      assert (HN : forall b, beside w1 (is_bodies il) b -> beside w (is_bodies il) b).
      { intros b (c & x & a & Ex & Ha & Hx). destruct (hrel_some' _ _ _ _ _ (sa_c _ _ Sm1) Ex) as (x0 & Ex0 & CS). exists c, x0, a. rewrite <- (con_same_bodies _ _ CS). auto. }
      assert (Hnud : is_awake il = true -> exists i, In i (L ++ [i0]) /\ nudged w (i_bs i)).
      { intros Ha. destruct (Soff Ha) as [->|(b & Hb & Hc)].
        - destruct (Hon eq_refl) as (i & Hi & Hn). exists i. split; [apply in_or_app; auto|exact Hn].
        - destruct (KF b Hb) as [Hb'|(i & j & Hij & Hn & _)].
          + exists i0. split; [apply in_or_app; right; left; reflexivity|]. exists b. split; [exact Hb'|]. destruct Hc as [Hc|Hc]; [left; exact Hc|right; apply HN, Hc].
          + exists i. split; [apply in_or_app; left; apply (before_in _ _ _ Hij)|exact Hn]. }
      assert (Hrou : forall i, In i (L ++ [i0]) -> lively w (i_bs i) -> is_awake il = true).
      { intros i Hi Hr. apply in_app_iff in Hi. destruct Hi as [Hi|[<-|[]]].
        - apply Son. left. destruct aw; [reflexivity|]. exfalso. apply (proj2 (Hoff eq_refl) i Hi Hr).
        - apply Son. right. destruct Hr as (b & Hb & Hr). exists b. auto. }
      exists (L ++ [i0]). split; [|split; [|split]].
      * constructor.
        { rewrite El, KL, map_app, <- app_assoc. reflexivity. }
        { intros b Hb. apply HA. left. auto. }
        { intros i j b Hij Hr Hb. apply before_snoc in Hij. apply HA. destruct Hij as [Hij|[-> Hi]]; [left; eauto|right]. split; [eapply Hrou; eassumption|exact Hb]. }
        { intros b Hb. apply HA in Hb. destruct Hb as [Hb|[Ha Hb]].
          - destruct (KF b Hb) as [?|(i & j & Hij & Hn & Hb')]; [auto|]. right. exists i, j. split; [apply before_snoc; auto|auto].
          - right. destruct (Hnud Ha) as (i & Hi & Hn). exists i, i0. split; [apply before_snoc; auto|auto]. }
      * intros b Hb. destruct (in_dec Nat.eq_dec b (is_bodies il)) as [Hi|Hi]; [right; exists i0; split; [apply in_or_app; right; left; reflexivity|exact Hi]|].
        destruct (HT b Hb) as [H|(i & Hii & Hbi)]; [left|right; exists i; split; [apply in_or_app; auto|exact Hbi]]. apply filter_In. split; [exact H|]. apply negb_true_iff, existsb_notin. exact Hi.
      * exact Hnud.
      * intros Ha. split.
        { intros b Hb. apply HA in Hb. destruct Hb as [Hb|[Hb _]]; [|congruence]. destruct aw; [rewrite (Son (or_introl eq_refl)) in Ha; discriminate|]. apply (proj1 (Hoff eq_refl)), Hb. }
        { intros i Hi Hr. rewrite (Hrou i Hi Hr) in Ha. discriminate. }
  - intros u w' _ (_ & _ & _ & aw' & _ & L & W & HT & _). exists L. split; [exact W|]. intros b Hb. destruct (HT b Hb) as [[]|H]; exact H.
Qed.
End Sleep.
