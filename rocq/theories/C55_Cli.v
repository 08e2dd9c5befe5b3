(** C55, C56: what the command lines of splr and dmcr mean. *)
From Coq Require Import String Ascii List Arith Bool Lia ZArith.
From Verif Require Import Base Text CertModel CnfModel CliModel.
Import ListNotations.
Open Scope string_scope.
Open Scope list_scope.
Ltac splits := repeat match goal with |- _ /\ _ => split end.
Local Arguments Ascii.eqb : simpl never.

(** * Specification *)

(** the options of the help text (config.rs:324-400, README.md:299-323) and how they are written *)
Inductive flag := NoColor | Quiet | Certify | Heatmap | Journal | Help | Version.
Inductive numopt := Cl | Crl | Ecl | Evl | Evo.
Inductive realopt := Timeout | Cdr | Cr1 | Cr2 | Rlt | Vdr | Vds.
Inductive pathopt := Dir | Proof | Result.
Definition flag_words (f : flag) : list string :=
  match f with
  | Help => ["-h"; "--help"] | NoColor => ["-C"; "--no-color"] | Quiet => ["-q"; "--quiet"] | Certify => ["-c"; "--certify"]
  | Heatmap => ["-H"; "--heatmap"] | Journal => ["-j"; "--journal"] | Version => ["-V"; "--version"]
  end%string.
Definition num_words (o : numopt) : list string :=
  match o with Cl => ["--cl"] | Crl => ["--crl"] | Ecl => ["--ecl"] | Evl => ["--evl"] | Evo => ["--evo"] end%string.
Definition real_words (o : realopt) : list string :=
  match o with
  | Timeout => ["-t"; "--timeout"] | Cdr => ["--cdr"] | Cr1 => ["--cr1"] | Cr2 => ["--cr2"] | Rlt => ["--rlt"]
  | Vdr => ["--vdr"] | Vds => ["--vds"]
  end%string.
Definition path_words (o : pathopt) : list string :=
  match o with Dir => ["-o"; "--dir"] | Proof => ["-p"; "--proof"] | Result => ["-r"; "--result"] end%string.

(** A command line is a sequence of items. *)
Inductive item (F : Type) :=
| IFlag (f : flag) | INum (o : numopt) (x : Z) | IReal (o : realopt) (x : F) | IPath (o : pathopt) (p : str) | IFile (p : str).
Arguments IFlag {F}. Arguments INum {F}. Arguments IReal {F}. Arguments IPath {F}. Arguments IFile {F}.

Section Spec.
Variable F : Type.
Variable parse_f64 : str -> option F.
Inductive spells : item F -> list str -> Prop :=
| sp_flag : forall f w, In w (flag_words f) -> spells (IFlag f) [chars w]
| sp_num : forall o w v x, In w (num_words o) -> parse_usize v = Some x -> spells (INum o x) [chars w; v]
| sp_real : forall o w v x, In w (real_words o) -> parse_f64 v = Some x -> spells (IReal o x) [chars w; v]
| sp_path : forall o w v, In w (path_words o) -> spells (IPath o v) [chars w; v]
| sp_file : forall p, (forall t, p <> "-"%char :: t) -> spells (IFile p) [p].
Inductive line : list (item F) -> list str -> Prop :=
| line_nil : line [] []
| line_cons : forall i its ws rest, spells i ws -> line its rest -> line (i :: its) (ws ++ rest).

(** the last item that sets something wins; without one the old value stays *)
Definition latest {A} (sel : item F -> option A) (its : list (item F)) (old x : A) : Prop :=
  (exists l1 i l2, its = l1 ++ i :: l2 /\ sel i = Some x /\ forall j, In j l2 -> sel j = None) \/
  ((forall j, In j its -> sel j = None) /\ x = old).
Definition num (o : numopt) (i : item F) : option Z :=
  match i, o with
  | INum Cl x, Cl | INum Crl x, Crl | INum Ecl x, Ecl | INum Evl x, Evl | INum Evo x, Evo => Some x
  | _, _ => None
  end.
Definition real (o : realopt) (i : item F) : option F :=
  match i, o with
  | IReal Timeout x, Timeout | IReal Cdr x, Cdr | IReal Cr1 x, Cr1 | IReal Cr2 x, Cr2 | IReal Rlt x, Rlt
  | IReal Vdr x, Vdr | IReal Vds x, Vds => Some x
  | _, _ => None
  end.
Definition path (o : pathopt) (i : item F) : option str :=
  match i, o with
  | IPath Dir x, Dir | IPath Proof x, Proof | IPath Result x, Result => Some x
  | _, _ => None
  end.
Definition given (f : flag) (its : list (item F)) (old new : bool) : Prop := new = true <-> old = true \/ In (IFlag f) its.

(** the configuration [c] that a command line makes out of [c0] *)
Record means (c0 : cli F) (file : str) (its : list (item F)) (c : cli F) : Prop := mkMeans {
  me_file : cnf_file c = file;
  me_color : given NoColor its (no_color c0) (no_color c);
  me_quiet : given Quiet its (quiet_mode c0) (quiet_mode c);
  me_cert : given Certify its (use_certification c0) (use_certification c);
  me_heat : given Heatmap its (show_cdb_heatmap c0) (show_cdb_heatmap c);
  me_journal : given Journal its (show_journal c0) (show_journal c);
  me_cl : latest (num Cl) its (c_cls_lim c0) (c_cls_lim c);
  me_crl : latest (num Crl) its (cls_rdc_lbd c0) (cls_rdc_lbd c);
  me_ecl : latest (num Ecl) its (elm_cls_lim c0) (elm_cls_lim c);
  me_evl : latest (num Evl) its (elm_grw_lim c0) (elm_grw_lim c);
  me_evo : latest (num Evo) its (elm_var_occ c0) (elm_var_occ c);
  me_time : latest (real Timeout) its (c_timeout c0) (c_timeout c);
  me_cdr : latest (real Cdr) its (crw_dcy_rat c0) (crw_dcy_rat c);
  me_cr1 : latest (real Cr1) its (cls_rdc_rm1 c0) (cls_rdc_rm1 c);
  me_cr2 : latest (real Cr2) its (cls_rdc_rm2 c0) (cls_rdc_rm2 c);
  me_rlt : latest (real Rlt) its (rst_lbd_thr c0) (rst_lbd_thr c);
  me_vdr : latest (real Vdr) its (vrw_dcy_rat c0) (vrw_dcy_rat c);
  me_vds : latest (real Vds) its (vrw_dcy_stp c0) (vrw_dcy_stp c);
  me_dir : latest (path Dir) its (io_odir c0) (io_odir c);
  me_proof : latest (path Proof) its (io_pfile c0) (io_pfile c);
  me_result : latest (path Result) its (io_rfile c0) (io_rfile c) }.

(** a well-formed command line: options and values, and the problem file, which is the last
    argument (it may be repeated before) *)
Definition well_formed (args : list str) (file : str) (its : list (item F)) : Prop :=
  line its args /\ forall p, In (IFile p) its -> p = file.
Definition the_file (args : list str) (c0 : cli F) : str := last args (cnf_file c0).

(** * Proofs *)
Definition apply (i : item F) (s : cst F) : cst F :=
  match i with
  | IFlag NoColor => upd_flag "no-color" s | IFlag Quiet => upd_flag "quiet" s | IFlag Certify => upd_flag "certify" s
  | IFlag Heatmap => upd_flag "heatmap" s | IFlag Journal => upd_flag "journal" s | IFlag Help => upd_flag "help" s
  | IFlag Version => upd_flag "version" s
  | INum Cl x => upd_z "cl" x s | INum Crl x => upd_z "crl" x s | INum Ecl x => upd_z "ecl" x s
  | INum Evl x => upd_z "evl" x s | INum Evo x => upd_z "evo" x s
  | IReal Timeout x => upd_f "timeout" x s | IReal Cdr x => upd_f "cdr" x s | IReal Cr1 x => upd_f "cr1" x s
  | IReal Cr2 x => upd_f "cr2" x s | IReal Rlt x => upd_f "rlt" x s | IReal Vdr x => upd_f "vdr" x s | IReal Vds x => upd_f "vds" x s
  | IPath Dir x => upd_p "dir" x s | IPath Proof x => upd_p "proof" x s | IPath Result x => upd_p "result" x s
  | IFile _ => s
  end.
Definition applies (its : list (item F)) (s : cst F) : cst F := fold_left (fun s i => apply i s) its s.

Lemma streq_iff : forall a b, streq a b = true <-> a = b.
Proof. intros a b. unfold streq. destruct (list_eq_dec ascii_dec a b); split; auto; discriminate. Qed.
Lemma streq_refl : forall a, streq a a = true. Proof. intros a. now apply streq_iff. Qed.
Lemma isin_cons : forall a w l, isin a (w :: l) = true -> a = chars w \/ isin a l = true.
Proof. intros a w l H. cbn in H. apply orb_true_iff in H. rewrite streq_iff in H. exact H. Qed.
Lemma isin_nil : forall a, isin a [] = true -> False. Proof. discriminate. Qed.

Lemma dashes_is : forall a, starts_with dashes a = true -> a = dashes ++ skipn 2 a.
Proof.
  intros a H. destruct a as [|x [|y t]]; cbn in H; try discriminate.
  - rewrite andb_false_r in H. discriminate.
  - apply andb_true_iff in H as [H1 H2]. apply andb_true_iff in H2 as [H2 _]. apply Ascii.eqb_eq in H1, H2. subst. reflexivity.
Qed.
Lemma dash_is : forall a, starts_with dash a = true -> a = dash ++ skipn 1 a.
Proof. intros a H. destruct a as [|x t]; cbn in H; try discriminate. apply andb_true_iff in H as [H _]. apply Ascii.eqb_eq in H. subst. reflexivity. Qed.
Lemma no_dash : forall a, starts_with dash a = false <-> forall t, a <> "-"%char :: t.
Proof.
  intros [|x t]; cbn; [split; auto; discriminate|]. rewrite andb_true_r. destruct (Ascii.eqb_spec "-" x) as [<-|N]; split; try discriminate; auto.
  - intros H. exfalso. now apply (H t).
  - intros _ u E. injection E as E _. now apply N.
Qed.
Lemma no_dashes : forall a, starts_with dash a = false -> starts_with dashes a = false.
Proof. intros [|x t]; cbn; auto. rewrite andb_true_r. intros ->. reflexivity. Qed.

Ltac words H := repeat (apply isin_cons in H; destruct H as [H|H]); [..|exfalso; exact (isin_nil _ H)].
Lemma line_app1 : forall i its w rest, spells i [w] -> line its rest -> line (i :: its) (w :: rest).
Proof. intros i its w rest H K. now apply (line_cons i its [w]). Qed.
Lemma line_app2 : forall i its w v rest, spells i [w; v] -> line its rest -> line (i :: its) (w :: v :: rest).
Proof. intros i its w v rest H K. now apply (line_cons i its [w; v]). Qed.

(** what the loop accepts is a well-formed line, and the result is the effect of its items *)
Lemma loop_line : forall file n args s s', length args <= n -> cli_loop parse_f64 file args s = Some s' ->
  exists its, well_formed args file its /\ s' = applies its s.
Proof.
  intros file. induction n as [|n IH]; intros args s s' Hl E.
  { destruct args; [|cbn in Hl; lia]. injection E as <-. exists []. split; [split; [constructor|intros p []]|reflexivity]. }
  destruct args as [|arg rest]; [injection E as <-; exists []; split; [split; [constructor|intros p []]|reflexivity]|].
  assert (S1 : forall i s1, spells i [arg] -> (forall p, i = IFile p -> p = file) -> s1 = apply i s ->
      cli_loop parse_f64 file rest s1 = Some s' -> exists its, well_formed (arg :: rest) file its /\ s' = applies its s).
  { intros i s1 Sp Fi -> E1. destruct (IH rest _ _ ltac:(cbn in Hl; lia) E1) as (its & [W1 W2] & ->). exists (i :: its). split; [|reflexivity].
    split; [now apply line_app1|]. intros p [->|Hp]; auto. }
  assert (S2 : forall i v rest' s1, rest = v :: rest' -> spells i [arg; v] -> (forall p, i <> IFile p) -> s1 = apply i s ->
      cli_loop parse_f64 file rest' s1 = Some s' -> exists its, well_formed (arg :: rest) file its /\ s' = applies its s).
  { intros i v rest' s1 -> Sp Fi -> E1. destruct (IH rest' _ _ ltac:(cbn in Hl; lia) E1) as (its & [W1 W2] & ->). exists (i :: its). split; [|reflexivity].
    split; [now apply line_app2|]. intros p [->|Hp]; auto. now destruct (Fi p). }
  cbn [cli_loop] in E. destruct (starts_with dashes arg) eqn:D2.
  - pose proof (dashes_is _ D2) as A. set (nm := skipn 2 arg) in *. clearbody nm. subst arg.
    destruct (existsb (Ascii.eqb "=") nm); [discriminate|].
    destruct (isin nm ["no-color"; "quiet"; "certify"; "heatmap"; "journal"; "help"; "version"]%string) eqn:I1.
    { words I1; subst nm.
      - apply (S1 (IFlag NoColor) _ (sp_flag NoColor "--no-color" ltac:(cbn; auto))) in E; auto; discriminate.
      - apply (S1 (IFlag Quiet) _ (sp_flag Quiet "--quiet" ltac:(cbn; auto))) in E; auto; discriminate.
      - apply (S1 (IFlag Certify) _ (sp_flag Certify "--certify" ltac:(cbn; auto))) in E; auto; discriminate.
      - apply (S1 (IFlag Heatmap) _ (sp_flag Heatmap "--heatmap" ltac:(cbn; auto))) in E; auto; discriminate.
      - apply (S1 (IFlag Journal) _ (sp_flag Journal "--journal" ltac:(cbn; auto))) in E; auto; discriminate.
      - apply (S1 (IFlag Help) _ (sp_flag Help "--help" ltac:(cbn; auto))) in E; auto; discriminate.
      - apply (S1 (IFlag Version) _ (sp_flag Version "--version" ltac:(cbn; auto))) in E; auto; discriminate. }
    clear I1. destruct (isin nm ["cl"; "crl"; "stat"; "ecl"; "evl"; "evo"]%string) eqn:I1.
    { destruct rest as [|v rest']; [discriminate|]. destruct (parse_usize v) as [x|] eqn:P; [|discriminate].
      words I1; subst nm; try discriminate E.
      - exact (S2 (INum Cl x) v rest' _ eq_refl (sp_num Cl "--cl" v x ltac:(cbn; auto) P) ltac:(discriminate) eq_refl E).
      - exact (S2 (INum Crl x) v rest' _ eq_refl (sp_num Crl "--crl" v x ltac:(cbn; auto) P) ltac:(discriminate) eq_refl E).
      - exact (S2 (INum Ecl x) v rest' _ eq_refl (sp_num Ecl "--ecl" v x ltac:(cbn; auto) P) ltac:(discriminate) eq_refl E).
      - exact (S2 (INum Evl x) v rest' _ eq_refl (sp_num Evl "--evl" v x ltac:(cbn; auto) P) ltac:(discriminate) eq_refl E).
      - exact (S2 (INum Evo x) v rest' _ eq_refl (sp_num Evo "--evo" v x ltac:(cbn; auto) P) ltac:(discriminate) eq_refl E). }
    clear I1. destruct (isin nm ["timeout"; "cdr"; "cr1"; "cr2"; "rlt"; "vdr"; "vds"]%string) eqn:I1.
    { destruct rest as [|v rest']; [discriminate|]. destruct (parse_f64 v) as [x|] eqn:P; [|discriminate].
      words I1; subst nm.
      - exact (S2 (IReal Timeout x) v rest' _ eq_refl (sp_real Timeout "--timeout" v x ltac:(cbn; auto) P) ltac:(discriminate) eq_refl E).
      - exact (S2 (IReal Cdr x) v rest' _ eq_refl (sp_real Cdr "--cdr" v x ltac:(cbn; auto) P) ltac:(discriminate) eq_refl E).
      - exact (S2 (IReal Cr1 x) v rest' _ eq_refl (sp_real Cr1 "--cr1" v x ltac:(cbn; auto) P) ltac:(discriminate) eq_refl E).
      - exact (S2 (IReal Cr2 x) v rest' _ eq_refl (sp_real Cr2 "--cr2" v x ltac:(cbn; auto) P) ltac:(discriminate) eq_refl E).
      - exact (S2 (IReal Rlt x) v rest' _ eq_refl (sp_real Rlt "--rlt" v x ltac:(cbn; auto) P) ltac:(discriminate) eq_refl E).
      - exact (S2 (IReal Vdr x) v rest' _ eq_refl (sp_real Vdr "--vdr" v x ltac:(cbn; auto) P) ltac:(discriminate) eq_refl E).
      - exact (S2 (IReal Vds x) v rest' _ eq_refl (sp_real Vds "--vds" v x ltac:(cbn; auto) P) ltac:(discriminate) eq_refl E). }
    clear I1. destruct (isin nm ["dir"; "proof"; "result"]%string) eqn:I1; [|discriminate].
    destruct rest as [|v rest']; [discriminate|]. words I1; subst nm.
    + exact (S2 (IPath Dir v) v rest' _ eq_refl (sp_path Dir "--dir" v ltac:(cbn; auto)) ltac:(discriminate) eq_refl E).
    + exact (S2 (IPath Proof v) v rest' _ eq_refl (sp_path Proof "--proof" v ltac:(cbn; auto)) ltac:(discriminate) eq_refl E).
    + exact (S2 (IPath Result v) v rest' _ eq_refl (sp_path Result "--result" v ltac:(cbn; auto)) ltac:(discriminate) eq_refl E).
  - clear D2. destruct (starts_with dash arg) eqn:D1.
    + pose proof (dash_is _ D1) as A. set (nm := skipn 1 arg) in *. clearbody nm. subst arg. clear D1.
      destruct (isin nm ["C"]%string) eqn:I1; [words I1; subst nm; exact (S1 (IFlag NoColor) _ (sp_flag NoColor "-C" ltac:(cbn; auto)) ltac:(discriminate) eq_refl E)|clear I1].
      destruct (isin nm ["q"]%string) eqn:I1; [words I1; subst nm; exact (S1 (IFlag Quiet) _ (sp_flag Quiet "-q" ltac:(cbn; auto)) ltac:(discriminate) eq_refl E)|clear I1].
      destruct (isin nm ["c"]%string) eqn:I1; [words I1; subst nm; exact (S1 (IFlag Certify) _ (sp_flag Certify "-c" ltac:(cbn; auto)) ltac:(discriminate) eq_refl E)|clear I1].
      destruct (isin nm ["j"]%string) eqn:I1; [words I1; subst nm; exact (S1 (IFlag Journal) _ (sp_flag Journal "-j" ltac:(cbn; auto)) ltac:(discriminate) eq_refl E)|clear I1].
      destruct (isin nm ["H"]%string) eqn:I1; [words I1; subst nm; exact (S1 (IFlag Heatmap) _ (sp_flag Heatmap "-H" ltac:(cbn; auto)) ltac:(discriminate) eq_refl E)|clear I1].
      destruct (isin nm ["h"]%string) eqn:I1; [words I1; subst nm; exact (S1 (IFlag Help) _ (sp_flag Help "-h" ltac:(cbn; auto)) ltac:(discriminate) eq_refl E)|clear I1].
      destruct (isin nm ["V"]%string) eqn:I1; [words I1; subst nm; exact (S1 (IFlag Version) _ (sp_flag Version "-V" ltac:(cbn; auto)) ltac:(discriminate) eq_refl E)|clear I1].
      destruct (isin nm ["o"; "p"; "r"; "t"]%string) eqn:I1; [|discriminate]. destruct rest as [|v rest']; [discriminate|]. words I1; subst nm.
      * exact (S2 (IPath Dir v) v rest' _ eq_refl (sp_path Dir "-o" v ltac:(cbn; auto)) ltac:(discriminate) eq_refl E).
      * exact (S2 (IPath Proof v) v rest' _ eq_refl (sp_path Proof "-p" v ltac:(cbn; auto)) ltac:(discriminate) eq_refl E).
      * exact (S2 (IPath Result v) v rest' _ eq_refl (sp_path Result "-r" v ltac:(cbn; auto)) ltac:(discriminate) eq_refl E).
      * cbn -[cli_loop] in E. destruct (parse_f64 v) as [x|] eqn:P; [|discriminate].
        exact (S2 (IReal Timeout x) v rest' _ eq_refl (sp_real Timeout "-t" v x ltac:(cbn; auto) P) ltac:(discriminate) eq_refl E).
    + destruct (streq file arg) eqn:Q; [|discriminate]. apply streq_iff in Q. subst arg.
      apply (S1 (IFile file) s) in E; auto; [constructor; now apply no_dash|]. intros p H. congruence.
Qed.
(** and conversely *)
Lemma line_loop : forall file its args, line its args -> (forall p, In (IFile p) its -> p = file) -> forall s,
  cli_loop parse_f64 file args s = Some (applies its s).
Proof.
  intros file its args L. induction L as [|i its ws rest Sp L IH]; intros Hf s; [reflexivity|].
  specialize (IH (fun p H => Hf p (or_intror H))). unfold applies. cbn [fold_left]. fold (applies its (apply i s)). rewrite <- IH.
  destruct Sp as [f w H|o w v x H P|o w v x H P|o w v H|p H].
  - destruct f; cbn in H; repeat (destruct H as [<-|H]; [reflexivity|]); destruct H.
  - destruct o; cbn in H; repeat (destruct H as [<-|H]; [cbn -[parse_usize]; rewrite P; reflexivity|]); destruct H.
  - destruct o; cbn in H; repeat (destruct H as [<-|H]; [cbn -[parse_usize]; rewrite P; reflexivity|]); destruct H.
  - destruct o; cbn in H; repeat (destruct H as [<-|H]; [reflexivity|]); destruct H.
  - assert (p = file) as -> by (apply Hf; now left). apply no_dash in H. cbn [app cli_loop].
    rewrite (no_dashes _ H), H, streq_refl. reflexivity.
Qed.

(** ** the effect of the items, field by field *)
Definition lastv {A} (sel : item F -> option A) (its : list (item F)) (old : A) : A :=
  fold_left (fun x i => match sel i with Some y => y | None => x end) its old.
Lemma latest_lastv : forall A (sel : item F -> option A) its old x, latest sel its old x <-> x = lastv sel its old.
Proof.
  intros A sel its old. induction its as [|i its IH] using rev_ind; intros x.
  - split; [|intros ->; right; split; auto; intros j []]. intros [(l1 & i & l2 & E & _)|[_ ->]]; auto. destruct l1; discriminate.
  - unfold lastv. rewrite fold_left_app. cbn [fold_left]. fold (lastv sel its old). destruct (sel i) as [y|] eqn:Ei.
    + split.
      * intros [(l1 & j & l2 & E & H1 & H2)|[H _]]; [|rewrite H in Ei by (apply in_or_app; right; now left); discriminate].
        destruct l2 as [|k l2 _] using rev_ind.
        { apply app_inj_tail in E as [_ ->]. congruence. }
        change (j :: l2 ++ [k]) with ((j :: l2) ++ [k]) in E. rewrite app_assoc in E. apply app_inj_tail in E as [_ ->].
        rewrite H2 in Ei by (apply in_or_app; right; now left). discriminate.
      * intros ->. left. exists its, i, []. splits; auto. intros j [].
    + rewrite <- IH. split.
      * intros [(l1 & j & l2 & E & H1 & H2)|[H ->]]; [|right; split; auto; intros j Hj; apply H, in_or_app; auto].
        destruct l2 as [|k l2 _] using rev_ind.
        { apply app_inj_tail in E as [_ ->]. congruence. }
        change (j :: l2 ++ [k]) with ((j :: l2) ++ [k]) in E. rewrite app_assoc in E. apply app_inj_tail in E as [-> ->].
        left. exists l1, j, l2. splits; auto. intros m Hm. apply H2, in_or_app; auto.
      * intros [(l1 & j & l2 & -> & H1 & H2)|[H ->]].
        -- left. exists l1, j, (l2 ++ [i]). rewrite <- app_assoc. splits; auto. intros m Hm. apply in_app_or in Hm as [Hm|[<-|[]]]; auto.
        -- right. split; auto. intros j Hj. apply in_app_or in Hj as [Hj|[<-|[]]]; auto.
Qed.
Lemma applies_field : forall A (g : cst F -> A) (sel : item F -> option A) its,
  (forall i s, In i its -> g (apply i s) = match sel i with Some y => y | None => g s end) ->
  forall s, g (applies its s) = lastv sel its (g s).
Proof.
  intros A g sel. induction its as [|i its IH]; intros H s; [reflexivity|]. unfold applies, lastv. cbn [fold_left].
  fold (applies its (apply i s)). rewrite IH by (intros; apply H; now right). rewrite H by now left. reflexivity.
Qed.
Definition isflag (f : flag) (i : item F) : bool :=
  match i, f with
  | IFlag NoColor, NoColor | IFlag Quiet, Quiet | IFlag Certify, Certify | IFlag Heatmap, Heatmap | IFlag Journal, Journal
  | IFlag Help, Help | IFlag Version, Version => true
  | _, _ => false
  end.
Lemma isflag_iff : forall f i, isflag f i = true <-> i = IFlag f.
Proof. intros f [g|o x|o x|o p|p]; cbn; split; try discriminate; destruct f; try destruct g; try discriminate; try reflexivity. Qed.
Lemma applies_flag : forall f (g : cst F -> bool), (forall i s, g (apply i s) = isflag f i || g s) ->
  forall its s, g (applies its s) = true <-> g s = true \/ In (IFlag f) its.
Proof.
  intros f g H. induction its as [|i its IH]; intros s; [cbn; tauto|]. unfold applies. cbn [fold_left]. fold (applies its (apply i s)).
  rewrite IH, H, orb_true_iff, isflag_iff. cbn [In]. tauto.
Qed.
Ltac field := intros i [[] h v]; destruct i as [[]|[]|[]|[]|]; reflexivity.

Lemma applies_means : forall its c0, (forall x, In (INum Crl x) its -> (0 <= x < 65536)%Z) ->
  means c0 (cnf_file c0) its (cs_cfg (applies its (mkCst c0 false false))).
Proof.
  intros its c0 H. set (s := mkCst c0 false false).
  constructor;
    try (apply latest_lastv;
         match goal with |- ?f (cs_cfg _) = lastv ?sel its _ => apply (applies_field _ (fun s => f (cs_cfg s)) sel its) end;
         intros i [[] h v] Hi; destruct i as [[]|[]|[]|[]|]; try reflexivity; apply Z.mod_small; apply H; exact Hi).
  - pose proof (applies_field _ (fun s => cnf_file (cs_cfg s)) (fun _ => None) its) as X. cbn beta in X. rewrite X.
    + unfold lastv. change (cnf_file c0) with (cnf_file (cs_cfg s)). generalize (cnf_file (cs_cfg s)) as y. clear. induction its; intros y; cbn; auto.
    + intros i [[] h v] _; destruct i as [[]|[]|[]|[]|]; reflexivity.
  - apply (applies_flag NoColor (fun s => no_color (cs_cfg s))). field.
  - apply (applies_flag Quiet (fun s => quiet_mode (cs_cfg s))). field.
  - apply (applies_flag Certify (fun s => use_certification (cs_cfg s))). field.
  - apply (applies_flag Heatmap (fun s => show_cdb_heatmap (cs_cfg s))). field.
  - apply (applies_flag Journal (fun s => show_journal (cs_cfg s))). field.
Qed.
Lemma applies_cnf : forall its s, cnf_file (cs_cfg (applies its s)) = cnf_file (cs_cfg s).
Proof.
  intros its s. pose proof (applies_field _ (fun s => cnf_file (cs_cfg s)) (fun _ => None) its) as X. cbn beta in X. rewrite X.
  - unfold lastv. generalize (cnf_file (cs_cfg s)) as y. clear. induction its; intros y; cbn; auto.
  - intros i [[] h v] _; destruct i as [[]|[]|[]|[]|]; reflexivity.
Qed.
Lemma given_fun : forall f its b x y, given f its b x -> given f its b y -> x = y.
Proof. intros f its b x y H K. unfold given in *. destruct x, y; auto; [symmetry|]; tauto. Qed.
Lemma means_fun : forall c0 file its c c', means c0 file its c -> means c0 file its c' -> c = c'.
Proof.
  intros c0 file its c c' [] []. destruct c, c'. cbn in *.
  repeat match goal with H : latest _ _ _ _ |- _ => apply latest_lastv in H end.
  repeat match goal with H : given ?f ?its ?b ?x, K : given ?f ?its ?b ?y |- _ => pose proof (given_fun _ _ _ _ _ H K); clear H K end.
  subst. reflexivity.
Qed.
Lemma means_cnf : forall c0 x file its c, means (upd_cnf x c0) file its c <-> means c0 file its c.
Proof. intros [] x file its c. split; intros []; constructor; auto. Qed.
Lemma start_file : forall args c0, cnf_file (match args with [] => c0 | _ => upd_cnf (last args []) c0 end) = the_file args c0.
Proof.
  intros [|a t] c0; [reflexivity|]. unfold the_file. assert (U : forall x (c : cli F), CliModel.cnf_file (upd_cnf x c) = x) by (intros x []; reflexivity). rewrite U. clear U. revert a.
  induction t as [|b t IH]; intros a; [reflexivity|]. cbn [last] in *. apply IH.
Qed.
Lemma applies_bools : forall its c, (cs_help (applies its (mkCst c false false)) = true <-> In (IFlag Help) its) /\
  (cs_version (applies its (mkCst c false false)) = true <-> In (IFlag Version) its).
Proof.
  intros its c. split.
  - rewrite (applies_flag Help cs_help) by field. cbn. split; auto. intros [H|H]; auto; discriminate.
  - rewrite (applies_flag Version cs_version) by field. cbn. split; auto. intros [H|H]; auto; discriminate.
Qed.
Definition c_start (args : list str) (c0 : cli F) : cli F := match args with [] => c0 | _ => upd_cnf (last args []) c0 end.
Lemma means_start : forall args c0 file its c, means (c_start args c0) file its c <-> means c0 file its c.
Proof. intros [|a t] c0 file its c; [reflexivity|apply means_cnf]. Qed.

(** the two ways a command line can go *)
Lemma inject_cases : forall ex args c0,
  (exists its, well_formed args (the_file args c0) its /\
     inject_from_args parse_f64 ex args c0 =
       let s := applies its (mkCst (c_start args c0) false false) in
       if cs_help s then CHelp else if cs_version s then CVersion else if streq (cnf_file (cs_cfg s)) [] then CNoFile
       else if negb (ex (cnf_file (cs_cfg s))) then CMissing else CRun (cs_cfg s)) \/
  (~ (exists its, well_formed args (the_file args c0) its) /\ inject_from_args parse_f64 ex args c0 = CPanic).
Proof.
  intros ex args c0. unfold inject_from_args. change (match args with [] => c0 | _ => upd_cnf (last args []) c0 end) with (c_start args c0).
  pose proof (start_file args c0 : cnf_file (c_start args c0) = _) as Sf. rewrite Sf.
  destruct (cli_loop parse_f64 (the_file args c0) args (mkCst (c_start args c0) false false)) as [s|] eqn:E.
  - left. destruct (loop_line _ _ _ _ _ (le_n _) E) as (its & W & ->). exists its. split; auto.
    destruct (applies its (mkCst (c_start args c0) false false)). reflexivity.
  - right. split; auto. intros (its & [L Hf]). rewrite (line_loop _ _ _ L Hf) in E. discriminate.
Qed.
Lemma inject_line : forall ex args c0 its, well_formed args (the_file args c0) its ->
  inject_from_args parse_f64 ex args c0 =
    let s := applies its (mkCst (c_start args c0) false false) in
    if cs_help s then CHelp else if cs_version s then CVersion else if streq (cnf_file (cs_cfg s)) [] then CNoFile
    else if negb (ex (cnf_file (cs_cfg s))) then CMissing else CRun (cs_cfg s).
Proof.
  intros ex args c0 its [L Hf]. unfold inject_from_args. change (match args with [] => c0 | _ => upd_cnf (last args []) c0 end) with (c_start args c0).
  pose proof (start_file args c0 : cnf_file (c_start args c0) = _) as Sf.
  rewrite Sf, (line_loop _ _ _ L Hf). destruct (applies its (mkCst (c_start args c0) false false)). reflexivity.
Qed.

(** a command line can be read in one way only *)
Inductive kind := KF (f : flag) | KN (o : numopt) | KR (o : realopt) | KP (o : pathopt).
Definition table : list (string * kind) :=
  flat_map (fun f => map (fun w => (w, KF f)) (flag_words f)) [NoColor; Quiet; Certify; Heatmap; Journal; Help; Version] ++
  flat_map (fun f => map (fun w => (w, KN f)) (num_words f)) [Cl; Crl; Ecl; Evl; Evo] ++
  flat_map (fun f => map (fun w => (w, KR f)) (real_words f)) [Timeout; Cdr; Cr1; Cr2; Rlt; Vdr; Vds] ++
  flat_map (fun f => map (fun w => (w, KP f)) (path_words f)) [Dir; Proof; Result].
Definition kind_of (w : str) : option kind := option_map snd (find (fun e => streq w (chars (fst e))) table).
Definition decode (ws : list str) : option (item F * list str) :=
  match ws with
  | [] => None
  | w :: rest =>
    match kind_of w with
    | Some (KF f) => Some (IFlag f, rest)
    | None => Some (IFile w, rest)
    | Some k => match rest with
                | [] => None
                | v :: rest' =>
                  match k with
                  | KN o => match parse_usize v with Some x => Some (INum o x, rest') | None => None end
                  | KR o => match parse_f64 v with Some x => Some (IReal o x, rest') | None => None end
                  | KP o => Some (IPath o v, rest')
                  | KF f => None
                  end
                end
    end
  end.
Lemma kind_file : forall p, (forall t, p <> "-"%char :: t) -> kind_of p = None.
Proof.
  intros p H. unfold kind_of. destruct (find (fun e => streq p (chars (fst e))) table) as [e|] eqn:E; auto.
  apply find_some in E as [E1 E2]. apply streq_iff in E2. exfalso.
  assert (X : forallb (fun e => match chars (fst e) with c :: _ => Ascii.eqb c "-" | [] => false end) table = true) by (vm_compute; reflexivity).
  rewrite forallb_forall in X. apply X in E1. rewrite <- E2 in E1. destruct p as [|c t]; [discriminate|].
  apply Ascii.eqb_eq in E1. subst c. now apply (H t).
Qed.
Lemma decode_spells : forall i ws rest, spells i ws -> decode (ws ++ rest) = Some (i, rest).
Proof.
  intros i ws rest [f w H|o w v x H P|o w v x H P|o w v H|p H]; unfold decode; cbn [app].
  - assert (kind_of (chars w) = Some (KF f)) as -> by (destruct f; cbn in H; repeat (destruct H as [<-|H]; [vm_compute; reflexivity|]); destruct H). reflexivity.
  - assert (kind_of (chars w) = Some (KN o)) as -> by (destruct o; cbn in H; repeat (destruct H as [<-|H]; [vm_compute; reflexivity|]); destruct H). now rewrite P.
  - assert (kind_of (chars w) = Some (KR o)) as -> by (destruct o; cbn in H; repeat (destruct H as [<-|H]; [vm_compute; reflexivity|]); destruct H). now rewrite P.
  - assert (kind_of (chars w) = Some (KP o)) as -> by (destruct o; cbn in H; repeat (destruct H as [<-|H]; [vm_compute; reflexivity|]); destruct H). reflexivity.
  - now rewrite kind_file.
Qed.
Lemma line_unique : forall its args, line its args -> forall its', line its' args -> its = its'.
Proof.
  intros its args L. induction L as [|i its ws rest Sp L IH]; intros its' L'.
  - remember (@nil str) as z eqn:Ez. destruct L' as [|i' t' ws' rest' Sp' L']; auto. destruct Sp'; discriminate.
  - remember (ws ++ rest) as z eqn:Ez. pose proof (decode_spells _ _ rest Sp) as D. rewrite <- Ez in D.
    destruct L' as [|i' t' ws' rest' Sp' L']; [destruct Sp; discriminate|].
    rewrite (decode_spells _ _ rest' Sp') in D. injection D as -> ->. f_equal. now apply IH.
Qed.
End Spec.
Arguments line {F}. Arguments well_formed {F}. Arguments the_file {F}. Arguments means {F}. Arguments spells {F}.

Lemma parse_digits_pos : forall s x, parse_digits s = Some x -> (0 <= x)%Z.
Proof.
  intros s x H. unfold parse_digits in H. destruct s as [|c t]; [discriminate|]. destruct (scan_uint (c :: t)) as [u|]; [|discriminate].
  injection H as <-. unfold Z.of_int, Z.of_uint. apply N2Z.is_nonneg.
Qed.
Lemma parse_usize_pos : forall s x, parse_usize s = Some x -> (0 <= x)%Z.
Proof.
  intros s x H. unfold parse_usize in H. destruct s as [|c t]; [discriminate|].
  destruct (if Ascii.eqb c plus then parse_digits t else parse_digits (c :: t)) as [z|] eqn:E; [|discriminate].
  destruct (Z.ltb z 18446744073709551616); [|discriminate]. injection H as <-.
  destruct (Ascii.eqb c plus); eapply parse_digits_pos; eauto.
Qed.

Lemma line_crl : forall F pf (its : list (item F)) args x, line pf its args -> In (INum Crl x) its -> (0 <= x)%Z.
Proof.
  intros F pf its args x L. induction L as [|i its ws rest Sp L IH]; intros H; [destruct H|]. destruct H as [->|H]; auto.
  inversion Sp. eapply parse_usize_pos; eauto.
Qed.

(** * C55 *)

(** [splr] solves with a configuration exactly if the command line is well-formed, does not
    ask for help or the version, and the problem file is there; the configuration is what the
    options say, in whichever order. Missing: values of [--crl] above 65535
    ([C55_crl_refuted]). *)
Theorem C55_run_partial : forall F parse_f64 exists_file args (c0 c : cli F),
  (forall its x, line parse_f64 its args -> In (INum Crl x) its -> (x < 65536)%Z) ->
  (inject_from_args parse_f64 exists_file args c0 = CRun c <->
   exists its, well_formed parse_f64 args (the_file args c0) its /\ ~ In (IFlag Help) its /\ ~ In (IFlag Version) its /\
     the_file args c0 <> [] /\ exists_file (the_file args c0) = true /\ means c0 (the_file args c0) its c).
Proof.
  intros F pf ex args c0 c Hc.
  assert (M : forall its, line pf its args -> means c0 (the_file args c0) its (cs_cfg (applies F its (mkCst (c_start F args c0) false false)))).
  { intros its L. apply (means_start F args). pose proof (start_file F args c0) as Sf. fold (c_start F args c0) in Sf. rewrite <- Sf.
    apply applies_means. intros x Hx. split; [eapply line_crl; eauto|eapply Hc; eauto]. }
  split.
  - intros E. destruct (inject_cases F pf ex args c0) as [(its & W & E')|[_ E']]; rewrite E' in E; [|discriminate].
    exists its. cbv zeta in E. destruct (applies_bools F its (c_start F args c0)) as [B1 B2]. destruct W as [L Hf]. pose proof (M its L) as Me.
    pose proof (me_file _ _ _ _ _ Me) as Mf. rewrite Mf in E.
    destruct (cs_help _); [discriminate|]. destruct (cs_version _); [discriminate|].
    destruct (streq (the_file args c0) []) eqn:Q; [discriminate|]. destruct (ex (the_file args c0)) eqn:X; [|discriminate]. injection E as <-.
    splits; auto; try (intros H; apply B1 in H || apply B2 in H; discriminate).
    + split; auto.
    + intros H. rewrite H in Q. discriminate.
  - intros (its & W & H1 & H2 & H3 & H4 & Me). rewrite (inject_line F pf ex args c0 its W). cbv zeta.
    destruct W as [L Hf]. pose proof (M its L) as Me'. pose proof (means_fun F _ _ _ _ _ Me Me') as ->.
    destruct (applies_bools F its (c_start F args c0)) as [B1 B2].
    rewrite (me_file _ _ _ _ _ Me'). destruct (cs_help _); [exfalso; apply H1; now apply B1|]. destruct (cs_version _); [exfalso; apply H2; now apply B2|].
    destruct (streq (the_file args c0) []) eqn:Q; [apply streq_iff in Q; contradiction|]. now rewrite H4.
Qed.

(** in all other cases it ends without solving: help, version, a message, or a panic when the
    command line is not well-formed *)
Theorem C55_ends : forall F parse_f64 exists_file args (c0 : cli F),
  let r := inject_from_args parse_f64 exists_file args c0 in
  let wf := well_formed parse_f64 args (the_file args c0) in
  (r = CPanic <-> ~ exists its, wf its) /\
  (r = CHelp <-> exists its, wf its /\ In (IFlag Help) its) /\
  (r = CVersion <-> exists its, wf its /\ ~ In (IFlag Help) its /\ In (IFlag Version) its) /\
  (r = CNoFile <-> exists its, wf its /\ ~ In (IFlag Help) its /\ ~ In (IFlag Version) its /\ the_file args c0 = []) /\
  (r = CMissing <-> exists its, wf its /\ ~ In (IFlag Help) its /\ ~ In (IFlag Version) its /\ the_file args c0 <> [] /\
     exists_file (the_file args c0) = false).
Proof.
  intros F pf ex args c0 r wf.
  destruct (inject_cases F pf ex args c0) as [(its & W & E)|[N E]].
  2:{ unfold r. rewrite E. splits; split; try discriminate; auto; intros (its & H); exfalso; apply N; exists its; tauto. }
  assert (U : forall its', wf its' -> its' = its) by (intros its' H; eapply line_unique; [apply H|apply W]).
  destruct (applies_bools F its (c_start F args c0)) as [B1 B2].
  assert (Mf : cnf_file (cs_cfg (applies F its (mkCst (c_start F args c0) false false))) = the_file args c0).
  { pose proof (applies_cnf F its (mkCst (c_start F args c0) false false)) as Mf. cbn [cs_cfg] in Mf. rewrite Mf. apply start_file. }
  unfold r. rewrite E. cbv zeta. rewrite Mf.
  assert (Z : forall P : list (item F) -> Prop, (exists its', wf its' /\ P its') <-> P its).
  { intros P. split; [intros (its' & H & K); now rewrite <- (U _ H)|intros H; now exists its]. }
  rewrite !Z. rewrite <- B1, <- B2. clear B1 B2 Z.
  assert (Y : exists its', wf its') by (now exists its).
  pose proof (streq_iff (the_file args c0) []) as Q.
  destruct (cs_help _), (cs_version _), (streq (the_file args c0) []), (ex (the_file args c0));
    (assert (Q' : the_file args c0 = [] \/ the_file args c0 <> []) by (destruct (the_file args c0); [now left|right; discriminate]));
    cbn [negb]; splits; split; try discriminate; try tauto; intuition discriminate.
Qed.
Theorem C55_one_reading : forall F parse_f64 (its its' : list (item F)) args, line parse_f64 its args -> line parse_f64 its' args -> its = its'.
Proof. intros F pf its its' args H K. eapply line_unique; eauto. Qed.

(** the documented form: options, then the problem file *)
Theorem C55_usage : forall F parse_f64 exists_file its words file (c0 : cli F), line parse_f64 its words ->
  (forall i, In i its -> i <> IFlag Help /\ i <> IFlag Version /\ (forall p, i <> IFile p) /\ forall x, i = INum Crl x -> (x < 65536)%Z) ->
  (forall t, file <> "-"%char :: t) -> file <> [] -> exists_file file = true ->
  exists c, inject_from_args parse_f64 exists_file (words ++ [file]) c0 = CRun c /\ means c0 file its c.
Proof.
  intros F pf ex its ws file c0 L H Hd Hn He.
  assert (L2 : line pf (its ++ [IFile file]) (ws ++ [file])).
  { clear H. induction L as [|i its w rest Sp L IH]; [apply (line_cons _ _ _ [] [file] []); constructor; auto|].
    cbn [app]. rewrite <- app_assoc. now constructor. }
  assert (Tf : the_file (ws ++ [file]) c0 = file) by (unfold the_file; apply last_last).
  assert (Me : forall c, means c0 file (its ++ [IFile file]) c <-> means c0 file its c).
  { assert (La : forall A (sel : item F -> option A) o x, (forall p, sel (IFile p) = None) -> latest F sel (its ++ [IFile file]) o x <-> latest F sel its o x).
    { intros A sel o x Hs. rewrite !latest_lastv. unfold lastv. rewrite fold_left_app. cbn [fold_left]. now rewrite Hs. }
    assert (Gi : forall f o x, given F f (its ++ [IFile file]) o x <-> given F f its o x).
    { intros f o x. unfold given. rewrite in_app_iff. cbn [In]. intuition discriminate. }
    intros c. split; intros []; constructor; auto; try (now apply Gi); apply La; auto; intros p; reflexivity. }
  set (args := ws ++ [file]) in *. assert (Hcr : forall its' x, line pf its' args -> In (INum Crl x) its' -> (x < 65536)%Z).
  { intros its' x L' Hx. rewrite (C55_one_reading _ _ _ _ _ L' L2) in Hx. apply in_app_or in Hx as [Hx|[Hx|[]]]; [|discriminate]. now apply (H _ Hx). }
  destruct (inject_cases F pf ex args c0) as [(its' & W & E)|[N E]].
  2:{ exfalso. apply N. exists (its ++ [IFile file]). split; auto. rewrite Tf. intros p Hp. apply in_app_or in Hp as [Hp|[Hp|[]]]; [|congruence].
      exact (False_ind _ (proj1 (proj2 (proj2 (H _ Hp))) p eq_refl)). }
  pose proof (C55_one_reading _ _ _ _ _ (proj1 W) L2) as ->.
  pose proof (start_file F args c0 : cnf_file (c_start F args c0) = the_file args c0) as Sf.
  exists (cs_cfg (applies F (its ++ [IFile file]) (mkCst (c_start F args c0) false false))).
  assert (M : means c0 file (its ++ [IFile file]) (cs_cfg (applies F (its ++ [IFile file]) (mkCst (c_start F args c0) false false)))).
  { apply (means_start F args). pose proof (applies_means F (its ++ [IFile file]) (c_start F args c0)) as Z. rewrite Sf, Tf in Z. apply Z.
    intros x Hx. split; [eapply line_crl; eauto|eapply Hcr; eauto]. }
  split; [|now apply Me]. rewrite E. cbv zeta. destruct (applies_bools F (its ++ [IFile file]) (c_start F args c0)) as [B1 B2].
  rewrite (me_file _ _ _ _ _ M).
  destruct (cs_help _). { exfalso. destruct B1 as [B1 _]. specialize (B1 eq_refl). apply in_app_or in B1 as [B1|[B1|[]]]; [|discriminate]. exact (proj1 (H _ B1) eq_refl). }
  destruct (cs_version _). { exfalso. destruct B2 as [B2 _]. specialize (B2 eq_refl). apply in_app_or in B2 as [B2|[B2|[]]]; [|discriminate]. exact (proj1 (proj2 (H _ B2)) eq_refl). }
  destruct (streq file []) eqn:Q; [apply streq_iff in Q; contradiction|]. now rewrite He.
Qed.

(** [--crl] is cut to 16 bits: 65541 becomes 5 *)
Theorem C55_crl_refuted : forall F parse_f64 (c0 : cli F), exists c,
  inject_from_args parse_f64 (fun _ => true) [chars "--crl"; chars "65541"; chars "f"] c0 = CRun c /\ cls_rdc_lbd c = 5%Z /\
  line parse_f64 [INum Crl 65541%Z; IFile (chars "f")] [chars "--crl"; chars "65541"; chars "f"].
Proof.
  intros F pf c0. destruct c0. eexists. splits; [vm_compute; reflexivity|reflexivity|].
  apply (line_cons F pf _ _ [chars "--crl"; chars "65541"] [chars "f"]); [apply sp_num; [now left|vm_compute; reflexivity]|].
  apply (line_cons F pf _ _ [chars "f"] []); [|constructor]. apply sp_file. intros t E. discriminate E.
Qed.
(** [-l] and [--log] are in the README (README.md:307), but the program panics *)
Theorem C55_log_refuted : forall F parse_f64 exists_file file (c0 : cli F),
  inject_from_args parse_f64 exists_file [chars "-l"; file] c0 = CPanic /\ inject_from_args parse_f64 exists_file [chars "--log"; file] c0 = CPanic.
Proof. intros F pf ex file c0. split; reflexivity. Qed.
(** the last argument is the problem, even if it is an option: with a file of that name in the
    directory [splr --certify] solves the file [--certify] *)
Theorem C55_option_as_file_refuted : forall F parse_f64 (c0 : cli F), exists c,
  inject_from_args parse_f64 (fun _ => true) [chars "--certify"] c0 = CRun c /\ cnf_file c = chars "--certify".
Proof. intros F pf c0. destruct c0. eexists. split; [vm_compute; reflexivity|reflexivity]. Qed.

(** ** where the results go *)
Lemma split_on_app : forall p a b c, p c = true -> split_on p (a ++ c :: b) = split_on p a ++ split_on p b.
Proof.
  intros p a b c H. induction a as [|x a IH]; cbn [app split_on]; [now rewrite H|].
  destruct (p x); [now rewrite IH|]. rewrite IH. destruct (split_on p a) as [|w ws] eqn:E; [|reflexivity].
  exfalso. clear - E. destruct a as [|y a]; cbn in E; [discriminate|]. destruct (p y); [discriminate|]. destruct (split_on p a); discriminate.
Qed.
Lemma split_on_none : forall p a, (forall x, In x a -> p x = false) -> split_on p a = [a].
Proof.
  intros p a. induction a as [|x a IH]; intros H; [reflexivity|]. cbn. rewrite H by now left. rewrite IH; auto. intros y Hy. apply H. now right.
Qed.
Lemma split_on_clean : forall p a w, In w (split_on p a) -> forall x, In x w -> p x = false.
Proof.
  intros p a. induction a as [|y a IH]; intros w Hw x Hx; cbn in Hw; [destruct Hw as [<-|[]]; destruct Hx|].
  destruct (p y) eqn:Ey; [destruct Hw as [<-|Hw]; [destruct Hx|eapply IH; eauto]|].
  destruct (split_on p a) as [|w' ws]; [destruct Hw as [<-|[]]; destruct Hx as [<-|[]]; auto|].
  destruct Hw as [<-|Hw]; [destruct Hx as [<-|Hx]; auto; eapply IH; [now left|auto]|eapply IH; [right; eauto|auto]].
Qed.
(** a plain name: not empty, no slash, neither "." nor ".." *)
Definition plain (n : str) : Prop := (forall x, In x n -> is_slash x = false) /\ n <> [] /\ n <> chars "." /\ n <> chars "..".
Lemma components_plain : forall n, plain n -> components n = [n].
Proof.
  intros n (H1 & H2 & H3 & H4). unfold components. rewrite split_on_none by auto. cbn [filter].
  destruct (streq n []) eqn:Q; [apply streq_iff in Q; contradiction|]. destruct (streq n (chars ".")) eqn:Q2; [apply streq_iff in Q2; contradiction|]. reflexivity.
Qed.
Lemma components_slash : forall a b, components (a ++ "/"%char :: b) = components a ++ components b.
Proof. intros a b. unfold components. rewrite split_on_app by reflexivity. apply filter_app. Qed.
Lemma components_end : forall a, components (a ++ ["/"%char]) = components a.
Proof. intros a. rewrite (components_slash a []). unfold components at 2. cbn. apply app_nil_r. Qed.
Lemma join_components : forall d n, plain n -> components (path_join d n) = components d ++ [n].
Proof.
  intros d n H. unfold path_join. destruct H as (H1 & H2 & H3 & H4). destruct n as [|x n]; [contradiction|].
  assert (S : starts_with (chars "/") (x :: n) = false).
  { cbn. rewrite andb_true_r. destruct (Ascii.eqb_spec "/" x) as [<-|]; auto. specialize (H1 "/"%char (or_introl eq_refl)). discriminate. }
  rewrite S. pose proof (components_plain (x :: n) (conj H1 (conj H2 (conj H3 H4)))) as C.
  destruct d as [|y d]; [exact C|]. destruct (is_slash (last (y :: d) " "%char)) eqn:L.
  - destruct (exists_last (l := y :: d)) as (d' & z & E); [discriminate|]. rewrite E in *. rewrite last_last in L. apply Ascii.eqb_eq in L. subst z.
    rewrite <- app_assoc. cbn [app]. rewrite components_slash, components_end. now rewrite C.
  - change (chars "/" ++ x :: n) with ("/"%char :: x :: n). rewrite components_slash. now rewrite C.
Qed.
Lemma file_name_join : forall d n, plain n -> file_name (path_join d n) = Some n.
Proof.
  intros d n H. unfold file_name. rewrite join_components by auto. rewrite rev_app_distr. cbn [rev app].
  destruct H as (_ & _ & _ & H). destruct (streq n (chars "..")) eqn:Q; auto. apply streq_iff in Q. contradiction.
Qed.
Lemma file_name_plain : forall p n, file_name p = Some n -> plain n.
Proof.
  intros p n H. unfold file_name in H. destruct (rev (components p)) as [|x t] eqn:E; [discriminate|].
  destruct (streq x (chars "..")) eqn:Q; [discriminate|]. injection H as ->.
  assert (I : In n (components p)) by (apply in_rev; rewrite E; now left). unfold components in I. apply filter_In in I as [I1 I2].
  apply andb_true_iff in I2 as [I2 I3]. apply negb_true_iff in I2, I3. unfold plain. splits.
  - intros x Hx. eapply split_on_clean; eauto.
  - intros ->. now rewrite streq_refl in I2.
  - intros ->. now rewrite streq_refl in I3.
  - intros ->. now rewrite streq_refl in Q.
Qed.
Lemma ans_plain : forall n, plain n -> plain (chars "ans_" ++ n).
Proof.
  intros n (H & _). unfold plain. splits; try discriminate. intros x Hx. apply in_app_or in Hx as [Hx|Hx]; auto.
  cbn in Hx. repeat (destruct Hx as [<-|Hx]; [reflexivity|]). destruct Hx.
Qed.
Lemma ans_other : forall n : str, chars "ans_" ++ n <> n.
Proof. intros n E. apply (f_equal (@Datatypes.length _)) in E. rewrite app_length in E. cbn in E. lia. Qed.

(** The answer goes to the terminal with [-r -], to the named file in the output directory
    with [-r file], and else to the file [ans_NAME] there, where NAME is the name of the
    problem file; a proof is written exactly with [--certify]; a proof file that is named
    without [--certify] is refused. With default names the answer is never written over the
    problem or the proof, and the proof not over a problem with another name. *)
Theorem C55_outputs : forall F (c : cli F) problem answer proof, splr_plan c = PSolve problem answer proof ->
  problem = cnf_file c /\
  (io_rfile c = chars "-" -> answer = None) /\
  (io_rfile c <> chars "-" -> io_rfile c <> [] -> answer = Some (path_join (io_odir c) (io_rfile c))) /\
  (io_rfile c = [] -> exists n a, file_name problem = Some n /\ answer = Some a /\ a = path_join (io_odir c) (chars "ans_" ++ n) /\
     file_name a = Some (chars "ans_" ++ n) /\ file_name a <> file_name problem) /\
  (use_certification c = true -> proof = Some (path_join (io_odir c) (io_pfile c))) /\
  (use_certification c = false -> proof = None /\ io_pfile c = chars "proof.drat") /\
  (io_pfile c = chars "proof.drat" -> io_rfile c = [] -> forall q a, proof = Some q -> answer = Some a ->
     file_name q = Some (chars "proof.drat") /\ file_name q <> file_name a /\
     (file_name problem <> Some (chars "proof.drat") -> file_name q <> file_name problem)).
Proof.
  intros F c problem answer proof E.
  assert (Pl : plain (chars "proof.drat")).
  { unfold plain. splits; try discriminate. intros x Hx. cbn in Hx. repeat (destruct Hx as [<-|Hx]; [reflexivity|]). destruct Hx. }
  assert (X : exists ans, (if streq (io_rfile c) (chars "-") then Some None
    else if streq (io_rfile c) [] then
      match file_name (cnf_file c) with
      | None => None
      | Some n => Some (Some (path_join (io_odir c) (chars "ans_" ++ n)))
      end
    else Some (Some (path_join (io_odir c) (io_rfile c)))) = Some ans /\ problem = cnf_file c /\ answer = ans /\
    negb (streq (io_pfile c) (chars "proof.drat")) && negb (use_certification c) = false /\
    proof = (if use_certification c then Some (path_join (io_odir c) (io_pfile c)) else None)).
  { unfold splr_plan in E. cbv zeta in E.
    match type of E with match ?x with _ => _ end = _ => destruct x as [ans|]; [|discriminate] end.
    match type of E with (if ?x then _ else _) = _ => destruct x eqn:B; [discriminate|] end. injection E as <- <- <-. exists ans. splits; auto. }
  clear E. destruct X as (ans & A & -> & -> & B & ->).
  assert (D : io_rfile c = [] -> exists n, file_name (cnf_file c) = Some n /\ ans = Some (path_join (io_odir c) (chars "ans_" ++ n))).
  { intros H. rewrite H in A. cbn in A. destruct (file_name (cnf_file c)) as [n|]; [|discriminate]. injection A as <-. eauto. }
  splits; auto.
  - intros H. rewrite H, streq_refl in A. congruence.
  - intros H1 H2. destruct (streq (io_rfile c) (chars "-")) eqn:Q1; [apply streq_iff in Q1; contradiction|].
    destruct (streq (io_rfile c) []) eqn:Q2; [apply streq_iff in Q2; contradiction|]. congruence.
  - intros H. destruct (D H) as (n & N & ->). exists n, (path_join (io_odir c) (chars "ans_" ++ n)).
    pose proof (file_name_join (io_odir c) _ (ans_plain n (file_name_plain _ _ N))) as J. splits; auto.
    rewrite J, N. intros Z. injection Z as Z. revert Z. apply (ans_other n).
  - intros ->. auto.
  - intros H. rewrite H in B. rewrite andb_true_r in B. apply negb_false_iff, streq_iff in B. now rewrite H.
  - intros H1 H2 q a Hq Ha. destruct (D H2) as (n & N & ->). injection Ha as <-. destruct (use_certification c); [|discriminate].
    injection Hq as <-. rewrite H1. rewrite (file_name_join _ _ Pl), (file_name_join _ _ (ans_plain n (file_name_plain _ _ N))).
    splits; auto; discriminate.
Qed.
(** nothing stops [splr -r f f] from writing the answer over the problem *)
Theorem C55_overwrite_refuted : forall F parse_f64 (c0 : cli F), io_odir c0 = chars "." -> io_pfile c0 = chars "proof.drat" -> exists c,
  inject_from_args parse_f64 (fun _ => true) [chars "-r"; chars "f"; chars "f"] c0 = CRun c /\
  exists pr, splr_plan c = PSolve (chars "f") (Some (chars "./f")) pr.
Proof.
  intros F pf [] H1 H2. cbn in H1, H2. subst. eexists. split; [vm_compute; reflexivity|].
  destruct use_certification; eexists; vm_compute; reflexivity.
Qed.

(** a command line with every kind of item *)
Example C55_example : exists (its : list (item unit)) (c : cli unit), let words := [chars "-c"; chars "--cl"; chars "17"; chars "-o"; chars "out"; chars "--crl"; chars "9"; chars "--dir"; chars "-q"] in
  line (fun _ => None) its words /\ its = [IFlag Certify; INum Cl 17%Z; IPath Dir (chars "out"); INum Crl 9%Z; IPath Dir (chars "-q")] /\
  inject_from_args (fun _ : str => None) (fun _ => true) (words ++ [chars "d/f.cnf"])
    (mkCli 0 tt [] (chars ".") (chars "proof.drat") [] false false false false false tt 5 tt tt tt 64 0 20000 tt tt) = CRun c /\
  c = mkCli 17 tt (chars "d/f.cnf") (chars "-q") (chars "proof.drat") [] false false false false true tt 9 tt tt tt 64 0 20000 tt tt /\
  splr_plan c = PSolve (chars "d/f.cnf") (Some (chars "-q/ans_f.cnf")) (Some (chars "-q/proof.drat")).
Proof.
  eexists. eexists. cbv zeta. splits; [|reflexivity|vm_compute; reflexivity|reflexivity|vm_compute; reflexivity].
  apply (line_cons _ _ _ _ [chars "-c"] _); [apply sp_flag; now left|].
  apply (line_cons _ _ _ _ [chars "--cl"; chars "17"] _); [apply sp_num; [now left|vm_compute; reflexivity]|].
  apply (line_cons _ _ _ _ [chars "-o"; chars "out"] _); [apply sp_path; now left|].
  apply (line_cons _ _ _ _ [chars "--crl"; chars "9"] _); [apply sp_num; [now left|vm_compute; reflexivity]|].
  apply (line_cons _ _ _ _ [chars "--dir"; chars "-q"] []); [apply sp_path; right; now left|constructor].
Qed.

(** * C56 *)

(** the options of dmcr (bin/dmcr.rs:110-121) *)
Inductive ditem := DColor | DAssign (f : str).
Inductive dline : list ditem -> list str -> Prop :=
| dl_nil : dline [] []
| dl_color : forall w its rest, In w ["-C"; "--no-color"]%string -> dline its rest -> dline (DColor :: its) (chars w :: rest)
| dl_assign : forall w f its rest, In w ["-a"; "--assign"]%string -> dline its rest -> dline (DAssign f :: its) (chars w :: f :: rest).
Fixpoint last_assign (its : list ditem) (old : option str) : option str :=
  match its with
  | [] => old
  | DAssign f :: t => last_assign t (Some f)
  | DColor :: t => last_assign t old
  end.

Lemma dmcr_line : forall ex its words, dline its words -> forall tail a p c h v,
  dmcr_loop ex (words ++ tail) (mkDopts a p c) h v =
  dmcr_loop ex tail (mkDopts (last_assign its a) p (c || existsb (fun i => match i with DColor => true | _ => false end) its)) h v.
Proof.
  intros ex its ws L. induction L as [|w its rest H L IH|w f its rest H L IH]; intros tail a p c h v.
  - cbn. now rewrite orb_false_r.
  - cbn [app existsb last_assign]. rewrite orb_true_r. transitivity (dmcr_loop ex (rest ++ tail) (mkDopts a p true) h v).
    + cbn in H. repeat (destruct H as [<-|H]; [reflexivity|]). destruct H.
    + rewrite IH. reflexivity.
  - cbn [app existsb last_assign]. transitivity (dmcr_loop ex (rest ++ tail) (mkDopts (Some f) p c) h v).
    + cbn in H. repeat (destruct H as [<-|H]; [reflexivity|]). destruct H.
    + rewrite IH. reflexivity.
Qed.

(** [dmcr OPTIONS problem] checks the problem with the last file given by [-a], or with
    [ans_NAME] in the current directory, NAME being the name of the problem file *)
Theorem C56_usage : forall exists_file program its words problem name, dline its words ->
  (forall t, problem <> "-"%char :: t) -> exists_file problem = true -> file_name problem = Some name ->
  dmcr_start exists_file program (words ++ [problem]) =
    DRun problem (match last_assign its None with Some f => f | None => chars "ans_" ++ name end)
      (existsb (fun i => match i with DColor => true | _ => false end) its).
Proof.
  intros ex prog its ws p n L Hd He Hn. unfold dmcr_start. rewrite last_last, He.
  rewrite (dmcr_line ex its ws L). apply no_dash in Hd. cbn [dmcr_loop d_problem]. rewrite (no_dashes _ Hd), Hd, He, streq_refl.
  cbn [negb orb d_problem d_assign d_no_color]. rewrite He. cbn [negb]. rewrite Hn. destruct (last_assign its None); reflexivity.
Qed.

(** Two paths that name the same file: the same components, both absolute or both relative. *)
Definition same_file (p q : str) : Prop := components p = components q /\ starts_with (chars "/") p = starts_with (chars "/") q.

(** The pair of the README: [splr problem], then [dmcr problem] in the same directory, reads
    the answer splr has written; with an output directory or a name for the answer, [dmcr -a]
    with the path splr has used reads it. *)
Theorem C56_pair : forall F parse_f64 exists_file program problem (c0 c : cli F) pr answer,
  (forall t, problem <> "-"%char :: t) -> exists_file problem = true ->
  io_odir c0 = chars "." -> io_rfile c0 = [] ->
  inject_from_args parse_f64 exists_file [problem] c0 = CRun c -> splr_plan c = PSolve problem answer pr ->
  exists a b, answer = Some a /\ dmcr_start exists_file program [problem] = DRun problem b false /\ same_file a b.
Proof.
  intros F pf ex prog p c0 c pr answer Hd He Ho Hr E P.
  assert (C : io_odir c = chars "." /\ io_rfile c = []).
  { destruct (C55_run_partial F pf ex [p] c0 c) as [K _].
    { intros its x L Hx. exfalso. assert (L' : line pf [IFile p] [p]) by (apply (line_cons _ _ _ _ [p] []); constructor; auto).
      rewrite (C55_one_reading _ _ _ _ _ L L') in Hx. destruct Hx as [Hx|[]]. discriminate. }
    destruct (K E) as (its & [W _] & _ & _ & _ & _ & M).
    assert (L' : line pf [IFile p] [p]) by (apply (line_cons _ _ _ _ [p] []); constructor; auto).
    rewrite (C55_one_reading _ _ _ _ _ W L') in M. destruct M. apply latest_lastv in me_dir0, me_result0. cbn in me_dir0, me_result0. split; congruence. }
  destruct C as [C1 C2]. destruct (C55_outputs F c p answer pr P) as (_ & _ & _ & X & _). destruct (X C2) as (n & a & N & -> & -> & _).
  rewrite C1. exists (path_join (chars ".") (chars "ans_" ++ n)), (chars "ans_" ++ n). splits; auto.
  - exact (C56_usage ex prog [] [] p n dl_nil Hd He N).
  - split; [|reflexivity]. rewrite (join_components _ (chars "ans_" ++ n)) by (apply ans_plain; eapply file_name_plain; eauto).
    rewrite (components_plain (chars "ans_" ++ n)) by (apply ans_plain; eapply file_name_plain; eauto). reflexivity.
Qed.
Theorem C56_assign : forall F exists_file program (c : cli F) problem a pr name,
  (forall t, problem <> "-"%char :: t) -> exists_file problem = true -> file_name problem = Some name ->
  splr_plan c = PSolve problem (Some a) pr ->
  dmcr_start exists_file program [chars "-a"; a; problem] = DRun problem a false.
Proof.
  intros F ex prog c p a pr n Hd He Hn _. apply (C56_usage ex prog [DAssign a] [chars "-a"; a] p n); auto. apply dl_assign; [now left|constructor].
Qed.
(** a problem that does not exist is never checked *)
Theorem C56_missing : forall exists_file program args problem f c, exists_file [] = false -> dmcr_start exists_file program args = DRun problem f c ->
  exists_file problem = true /\ problem = last args program.
Proof.
  intros ex prog args p f c E0 E. unfold dmcr_start in E.
  assert (L : forall n args s h v s' h' v', Datatypes.length args <= n -> dmcr_loop ex args s h v = Some (s', h', v') -> d_problem s' = d_problem s).
  { clear. induction n as [|n IH]; intros args s h v s' h' v' Hl E; (destruct args as [|a t]; [cbn in E; injection E as <- _ _; reflexivity|]); cbn in Hl; [lia|].
    assert (Hl' : Datatypes.length t <= n) by lia. cbn [dmcr_loop] in E.
    repeat match type of E with
    | (if ?x then _ else _) = _ => destruct x
    | match t with _ => _ end = _ => destruct t as [|v0 t]; [discriminate|cbn in Hl']
    end; try discriminate; apply IH in E; auto; lia. }
  destruct (dmcr_loop ex args (mkDopts None (if ex (last args prog) then last args prog else []) false) false false) as [[[s h] v]|] eqn:D; [|discriminate].
  pose proof (L _ _ _ _ _ _ _ _ (le_n _) D) as P. cbn [d_problem] in P. destruct h; [discriminate|]. destruct v; [discriminate|].
  destruct (ex (d_problem s)) eqn:X; cbn [negb] in E; [|discriminate].
  assert (Q : p = d_problem s) by (destruct (d_assign s); [now injection E|destruct (file_name (d_problem s)); [now injection E|discriminate]]).
  subst p. split; auto. rewrite P in *. destruct (ex (last args prog)); [reflexivity|].
  congruence.
Qed.
(** unknown options are ignored without a message, and after [splr -o d f] a plain [dmcr f]
    looks for the answer in another place *)
Theorem C56_unknown_option_refuted : forall exists_file program problem name, (forall t, problem <> "-"%char :: t) ->
  exists_file problem = true -> file_name problem = Some name ->
  dmcr_start exists_file program [chars "--asign"; problem] = DRun problem (chars "ans_" ++ name) false /\
  dmcr_start exists_file program [chars "-z"; problem] = DRun problem (chars "ans_" ++ name) false.
Proof.
  intros ex prog p n Hd He Hn.
  assert (A : forall t s h v, dmcr_loop ex (chars "--asign" :: t) s h v = dmcr_loop ex t s h v) by reflexivity.
  assert (B : forall t s h v, dmcr_loop ex (chars "-z" :: t) s h v = dmcr_loop ex t s h v) by reflexivity.
  pose proof (C56_usage ex prog [] [] p n dl_nil Hd He Hn) as X. cbn [app last_assign existsb] in X.
  split; rewrite <- X; unfold dmcr_start; cbn [last]; [rewrite A|rewrite B]; reflexivity.
Qed.
Theorem C56_directory_refuted : forall F parse_f64 (c0 : cli F), io_rfile c0 = [] -> io_pfile c0 = chars "proof.drat" -> exists c pr,
  inject_from_args parse_f64 (fun _ => true) [chars "-o"; chars "d"; chars "f"] c0 = CRun c /\
  splr_plan c = PSolve (chars "f") (Some (chars "d/ans_f")) pr /\
  dmcr_start (fun _ => true) (chars "dmcr") [chars "f"] = DRun (chars "f") (chars "ans_f") false /\
  ~ same_file (chars "d/ans_f") (chars "ans_f").
Proof.
  intros F pf [] H1 H2. cbn in H1, H2. subst. eexists. exists (if use_certification then Some (chars "d/proof.drat") else None). splits.
  - vm_compute. reflexivity.
  - destruct use_certification; vm_compute; reflexivity.
  - vm_compute. reflexivity.
  - intros [H _]. vm_compute in H. discriminate.
Qed.
Example C56_example : dline [DAssign (chars "x"); DColor] [chars "-a"; chars "x"; chars "--no-color"] /\
  dmcr_start (fun _ => true) (chars "dmcr") [chars "-a"; chars "x"; chars "--no-color"; chars "d/f.cnf"] = DRun (chars "d/f.cnf") (chars "x") true.
Proof. split; [|vm_compute; reflexivity]. apply dl_assign; [now left|]. apply (dl_color "--no-color"); [right; now left|constructor]. Qed.
