(** * C59, C60: command lines *)
From Coq Require Import Ascii String Decimal DecimalN.
From stdpp Require Import list.
From Verif Require Import Metamorphic MainInterface MainFiles.
From Verif Require Export Cli FormatSpec CliSpec CliFacts.
Local Open Scope string_scope.
Local Notation length := List.length.

Lemma flag_given es i : NoDup (map fst (settings es)) → (flag es i).2 = true ↔ ∃ v, Given i v ∈ es.
Proof.
  intros Hn. unfold flag. simpl. destruct (setting es i) as [v|] eqn:E.
  - split; [|done]. intros _. exists v. by apply setting_some in E.
  - split; [done|]. intros (v & Hv). by apply setting_none with (v := v) in E.
Qed.

(** The arguments are those that the command line asks for. *)
Lemma cli_exact :
  ∀ argv a, (∃ m, get_matches argv = Some m ∧ parse_args m = Val a) ↔ asks argv a.
Proof.
  intros argv a. split.
  - intros (m & Hm & Hp).
    apply get_matches_cases in Hm
      as (es & o1 & o2 & o3 & o4 & o5 & o6 & t & n & b & Hs & Hn & Ho & Ht & Hn' & Hb & ->).
    pose proof (flag_given es "search" Hn) as Hf1. pose proof (flag_given es "accept_func" Hn) as Hf2.
    unfold flag in Hp. simpl in Hf1, Hf2. rewrite parse_matches in Hp. injection Hp as <-.
    exists es. rewrite <- settings_ids. split; [done|]. split; [done|]. split; [exact Ho|].
    cbn [a_search a_probabilistic a_timeout a_task_bound a_nthreads].
    split; [exact Hf1|]. split; [exact Hf2|]. split; [exact Ht|]. split; [exact Hb|].
    destruct n as [n|]; [right; by rewrite N2Nat.id|by left].
  - intros (es & Hs & Hn & Ho & Hf1 & Hf2 & Ht & Hb & Hn').
    rewrite <- settings_ids in Hn. destruct a as [o1 o2 o3 o4 o5 o6 s t n p b]. simpl in *.
    assert (∃ n', says_number (2 ^ 16) es "nthreads" n' ∧ n = match n' with Some n => N.to_nat n | None => 1 end)
      as (n' & Hsn & ->).
    { destruct Hn' as [[Hn' ->]|Hn']; [by exists None|]. exists (Some (N.of_nat n)). split; [done|]. by rewrite Nat2N.id. }
    eexists. split.
    + apply get_matches_cases. exists es, o1, o2, o3, o4, o5, o6, t, n', b. split_and?; try done.
    + unfold flag.
      assert ((match setting es "search" with Some _ => true | None => false end) = s) as ->.
      { pose proof (flag_given es "search" Hn) as H. simpl in H. rewrite <- Hf1 in H.
        destruct s, (setting es "search"); naive_solver. }
      assert ((match setting es "accept_func" with Some _ => true | None => false end) = p) as ->.
      { pose proof (flag_given es "accept_func" Hn) as H. simpl in H. rewrite <- Hf2 in H.
        destruct p, (setting es "accept_func"); naive_solver. }
      apply parse_matches.
Qed.

(** The calls of [expect] never panic. *)
Lemma cli_no_panic :
  ∀ argv m, get_matches argv = Some m → ∃ a, parse_args m = Val a.
Proof.
  intros argv m Hm.
  apply get_matches_cases in Hm
    as (es & o1 & o2 & o3 & o4 & o5 & o6 & t & n & b & Hs & Hn & Ho & Ht & Hn' & Hb & ->).
  eexists. unfold flag. apply parse_matches.
Qed.

(** *** Every combination of arguments can be asked for *)

Lemma decimal_exists n : ∃ ds, ds ≠ [] ∧ Forall (λ d, (d < 10)%N) ds ∧ digits_value ds = n.
Proof.
  exists (digit_list (N.to_uint n)). split.
  - destruct (N.to_uint n) eqn:E; try done.
    pose proof (DecimalN.Unsigned.to_of (N.to_uint n)) as Hn. by rewrite DecimalN.Unsigned.of_to, E in Hn.
  - split; [apply digit_list_bound|]. rewrite <- of_uint_value. apply DecimalN.Unsigned.of_to.
Qed.

Lemma decimal_plain ds : ds ≠ [] → Forall (λ d, (d < 10)%N) ds → plain (digits_string ds).
Proof.
  intros Hne Hds. destruct ds as [|d ds]; [done|]. apply Forall_cons in Hds as [Hd _].
  right. intros r E. rewrite digits_string_cons in E. injection E as E _. by destruct (digit_not_sign d Hd).
Qed.

Lemma no_operands es : (∀ s, Operand s ∉ es) →
  omap (λ e, match e with Operand s => Some s | Given _ _ => None end) es = [].
Proof.
  induction es as [|[i v|s] es IH]; intros H; [done|..].
  - simpl. apply IH. intros s Hs. apply (H s). by right.
  - destruct (H s). by left.
Qed.

Definition timeout_opt : Opt := mkOpt "timeout" "t" "timeout" true.
Definition nthreads_opt : Opt := mkOpt "nthreads" "n" "nthreads" true.
Definition bound_opt : Opt := mkOpt "task_bound" "b" "task-bound" true.
Definition search_opt : Opt := mkOpt "search" "s" "search" false.
Definition prob_opt : Opt := mkOpt "accept_func" "p" "probablistic" false.

Lemma cli_reachable :
  ∀ a, (∀ t, a_timeout a = Some t → (t < 2 ^ 32)%N) → (∀ b, a_task_bound a = Some b → (b < 2 ^ 32)%N) →
  (N.of_nat (a_nthreads a) < 2 ^ 16)%N → ∃ argv, asks argv a.
Proof.
  intros a Ht Hb Hn.
  assert (∃ ps es, Forall (piece_ok search_opts) ps ∧ es = concat (map piece_events ps) ∧
    (∀ s, Operand s ∉ es) ∧
    NoDup (omap (λ e, match e with Given i _ => Some i | Operand _ => None end) es) ∧
    (a_search a = true ↔ ∃ v, Given "search" v ∈ es) ∧
    (a_probabilistic a = true ↔ ∃ v, Given "accept_func" v ∈ es) ∧
    says_number (2 ^ 32) es "timeout" (a_timeout a) ∧
    says_number (2 ^ 32) es "task_bound" (a_task_bound a) ∧
    says_number (2 ^ 16) es "nthreads" (Some (N.of_nat (a_nthreads a))))
    as (ps & es & Hok & Ees & Hop & Hnd & H1 & H2 & H3 & H4 & H5).
  { destruct (decimal_exists (N.of_nat (a_nthreads a))) as (dn & Hdn & Hdn' & Hvn).
    assert (∃ dt, match a_timeout a with
      | Some t => dt ≠ [] ∧ Forall (λ d, (d < 10)%N) dt ∧ digits_value dt = t | None => True end) as [dt Hdt].
    { destruct (a_timeout a) as [t|]; [|by exists []]. destruct (decimal_exists t) as (d & ?). by exists d. }
    assert (∃ db, match a_task_bound a with
      | Some t => db ≠ [] ∧ Forall (λ d, (d < 10)%N) db ∧ digits_value db = t | None => True end) as [db Hdb].
    { destruct (a_task_bound a) as [t|]; [|by exists []]. destruct (decimal_exists t) as (d & ?). by exists d. }
    exists ((if a_search a then [Long search_opt] else []) ++
            (if a_probabilistic a then [Long prob_opt] else []) ++
            (if a_timeout a then [LongNext timeout_opt (digits_string dt)] else []) ++
            (if a_task_bound a then [LongNext bound_opt (digits_string db)] else []) ++
            [LongNext nthreads_opt (digits_string dn)])%list.
    eexists. split; [|split; [reflexivity|]].
    - rewrite !Forall_app. split_and!.
      + destruct (a_search a); constructor; [|constructor]. split; [|done]. by left.
      + destruct (a_probabilistic a); constructor; [|constructor]. split; [|done]. do 3 right. by left.
      + destruct (a_timeout a); constructor; [|constructor]. split; [|by apply decimal_plain; apply Hdt].
        split; [|done]. do 1 right. by left.
      + destruct (a_task_bound a); constructor; [|constructor]. split; [|by apply decimal_plain; apply Hdb].
        split; [|done]. do 4 right. by left.
      + constructor; [|constructor]. split; [|by apply decimal_plain]. split; [|done]. do 2 right. by left.
    - destruct (a_search a), (a_probabilistic a), (a_timeout a) as [t|], (a_task_bound a) as [b|]; simpl;
      (split; [intros s; rewrite elem_of_list_In; simpl; naive_solver|]);
      (split; [by apply (bool_decide_unpack _)|]);
      (split; [setoid_rewrite elem_of_list_In; simpl; naive_solver|]);
      (split; [setoid_rewrite elem_of_list_In; simpl; naive_solver|]);
      unfold says_number;
      (split; [first [intros v; rewrite elem_of_list_In; simpl; naive_solver|
        exists (digits_string dt); split; [rewrite elem_of_list_In; simpl; tauto|];
        exists "", dt; destruct Hdt as (Hx & Hy & Hz); rewrite Hz; split_and!; [done|done|done|done|by apply Ht|by left]]|]);
      (split; [first [intros v; rewrite elem_of_list_In; simpl; naive_solver|
        exists (digits_string db); split; [rewrite elem_of_list_In; simpl; tauto|];
        exists "", db; destruct Hdb as (Hx & Hy & Hz); rewrite Hz; split_and!; [done|done|done|done|by apply Hb|by left]]|]);
      (exists (digits_string dn); split; [rewrite elem_of_list_In; simpl; tauto|];
        exists "", dn; split_and!; [done|done|done|done|done|by left]). }
  set (ops := [a_spacial_graph a; a_spacial_graph_format a; a_dependency_graph a; a_dependency_graph_format a;
       a_paths a; a_paths_format a]).
  exists (concat (map piece_args ps) ++ tail_args (Some ops))%list.
  exists (es ++ map Operand ops)%list.
  assert (∀ i v, Given i v ∈ (es ++ map Operand ops)%list ↔ Given i v ∈ es) as Hin.
  { intros i v. rewrite elem_of_app. split; [|by left]. intros [H|H]; [done|].
    apply elem_of_list_fmap in H as (s & E & _). discriminate E. }
  split; [exists ps, (Some ops); split; [exact Hok|]; split; [reflexivity|rewrite Ees; reflexivity]|].
  split; [rewrite omap_app; simpl; rewrite app_nil_r; exact Hnd|]. split.
  { rewrite omap_app, (no_operands es Hop). reflexivity. }
  split; [rewrite H1; by setoid_rewrite Hin|]. split; [rewrite H2; by setoid_rewrite Hin|].
  assert (∀ lim id n, says_number lim (es ++ map Operand ops)%list id n ↔ says_number lim es id n) as Hsn.
  { intros lim id [n|]; unfold says_number; setoid_rewrite Hin; done. }
  rewrite !Hsn. split; [done|]. split; [done|]. by right.
Qed.

(** ** The program *)

Lemma program_outcome :
  ∀ bd fuel env os fs argv,
  (∀ a, asks argv a → program bd fuel env os fs argv =
     match main bd fuel env os fs a with
     | Some (Val fs') => Some (Val (Ran fs')) | Some Panic => Some Panic | None => None end) ∧
  ((¬ ∃ a, asks argv a) → program bd fuel env os fs argv = Some (Val Exit)).
Proof.
  intros bd fuel env os fs argv. unfold program. split.
  - intros a Ha. apply cli_exact in Ha as (m & -> & ->). done.
  - intros Hn. destruct (get_matches argv) as [m|] eqn:E; [|done]. exfalso. apply Hn.
    destruct (cli_no_panic argv m E) as [a Ha]. exists a. apply cli_exact. by exists m.
Qed.

(** From the command line and the files to the files. *)
Lemma program_optimal :
  ∀ env os fs argv a adj g, asks argv a →
  stored json_spacial_text bin_spacial_text os fs (a_spacial_graph a) (a_spacial_graph_format a) adj →
  stored json_order_text bin_order_text os fs (a_dependency_graph a) (a_dependency_graph_format a) g →
  writable os (a_paths a) →
  (a_paths_format a = "serde_json" ∨ a_paths_format a = "bincode") →
  wf_input adj g → (∀ l, e_hash_order env l ≡ₚ l) → (∃ b, listed g b) →
  a_search a = true → a_timeout a = None → a_nthreads a ≤ 1 → a_probabilistic a = false →
  ∃ ps fs', pareto_front adj g ps ∧ paths_in fs' (a_paths a) (a_paths_format a) = Some ps ∧
    ∀ bd, returns (λ fuel, program bd fuel env (with_codecs os) fs argv) (Ran fs').
Proof.
  intros env os fs argv a adj g Ha H1 H2 H3 H4 H5 H6 H7 H8 H9 H10 H11.
  destruct (files_optimal env os fs a adj g H1 H2 H3 H4 H5 H6 H7 H8 H9 H10 H11) as (ps & fs' & Hps & Hin & Hr).
  exists ps, fs'. split; [done|]. split; [done|]. intros bd. destruct (Hr bd) as [fuel Hf].
  exists fuel. intros f Hle. rewrite (proj1 (program_outcome bd f env (with_codecs os) fs argv) a Ha).
  by rewrite (Hf f Hle).
Qed.

(** ** The benchmark programs *)

Lemma subcommand_operands parse_f64 ids argv l :
  subcommand parse_f64 ids argv = Some l ↔
  ∃ es, says [] argv es ∧ length (operands es) = length ids ∧
    mapM (λ '((id, kind), s), pair id <$> read_value parse_f64 kind s) (zip ids (operands es)) = Some l.
Proof.
  unfold subcommand. split.
  - intros H. apply bind_Some in H as (es & He & H). apply events_says in He; [|apply no_opts_wf].
    destruct (decide _); [|done]. by exists es.
  - intros (es & He & Hl & H). apply bind_Some. exists es.
    split; [by apply events_says; [apply no_opts_wf|]|]. by rewrite decide_True.
Qed.

Lemma parse_usize_spec s n : parse_usize s = Some n ↔ unsigned_text (2 ^ 64) s n.
Proof.
  assert (Z.of_N (2 ^ 64) = 2 ^ 64)%Z as Hpow by done.
  assert (parse_usize s = Some n ↔ ∃ z,
    match s with
    | "" => None
    | String c r => if Ascii.eqb c "+" then digits_part r else digits_part s
    end = Some z ∧ (z < 2 ^ 64)%Z ∧ n = Z.to_N z) as ->.
  { unfold parse_usize. fold digits_part. destruct (match s with "" => None | _ => _ end) as [z|].
    - destruct (z <? 2 ^ 64)%Z eqn:E.
      + split; [intros [= <-]; exists z; split; [done|]; split; [lia|done]|]. by intros (? & [= <-] & _ & ->).
      + split; [done|]. intros (? & [= <-] & ? & ->). lia.
    - split; [done|]. by intros (? & ? & _). }
  split.
  - intros (z & Hz & Hr & ->). destruct s as [|c r]; [done|].
    destruct (Ascii.eqb_spec c "+") as [->|H2].
    + apply digits_part_spec in Hz as (ds & -> & Hne & Hds & ->). split; [|done]. exists "+", ds.
      split; [done|]. split; [done|]. split; [done|]. split; [lia|]. split; [lia|]. by right; left.
    + apply digits_part_spec in Hz as (ds & E & Hne & Hds & ->). split.
      * exists "", ds. split; [done|]. split; [done|]. split; [done|]. split; [lia|]. split; [lia|]. by left.
      * intros r' [= -> _]. destruct ds as [|d ds]; [done|]. apply Forall_cons in Hds as [Hd _].
        rewrite digits_string_cons in E. injection E as E _. by destruct (digit_not_sign d Hd).
  - intros [(sign & ds & -> & Hne & Hds & -> & Hlim & Hsign) Hm].
    assert (digits_part (digits_string ds) = Some (Z.of_N (digits_value ds))) as Hd
      by (apply digits_part_spec; by exists ds).
    exists (Z.of_N (digits_value ds)). split; [|split; [lia|by rewrite N2Z.id]].
    destruct Hsign as [->|[->|[-> H0]]].
    + destruct ds as [|d ds]; [done|]. apply Forall_cons in Hds as [Hd1 _].
      destruct (digit_not_sign d Hd1) as [H1 H2].
      change ("" ++ digits_string (d :: ds)) with (digits_string (d :: ds)).
      rewrite digits_string_cons in Hd |- *. by destruct (Ascii.eqb_spec (ascii_of_N (48 + d)) "+").
    + exact Hd.
    + by destruct (Hm (digits_string ds)).
Qed.

Lemma benchmark_cli :
  ∀ parse_f64 argv,
  (∀ m, benchmark_matches parse_f64 argv = Some m → ∃ a, parse_benchmark m = Val a) ∧
  (∀ a, (∃ m, benchmark_matches parse_f64 argv = Some m ∧ parse_benchmark m = Val a) ↔
    asks_benchmark (λ s x, parse_f64 s = Some x) argv a).
Proof.
  intros parse_f64 argv.
  assert (∀ m, benchmark_matches parse_f64 argv = Some m → ∃ a, parse_benchmark m = Val a ∧
    asks_benchmark (λ s x, parse_f64 s = Some x) argv a) as Hcases.
  { intros m H. unfold benchmark_matches in H. destruct argv as [|name argv]; [done|].
    destruct (String.eqb_spec name "node") as [->|H1]; [|destruct (String.eqb_spec name "density") as [->|H2]; [|done]].
    - apply bind_Some in H as (l & H & Hm). injection Hm as <-.
      apply subcommand_operands in H as (es & Hs & Hl & H).
      destruct (operands es) as [|d [|c [|dt [|ct [|x ops]]]]] eqn:Eo; try discriminate Hl.
      simpl in H. destruct (parse_f64 d) as [xd|] eqn:Ed; [|done]. destruct (parse_f64 c) as [xc|] eqn:Ec; [|done].
      simpl in H. injection H as <-. exists (NodeArgs_ (mkNodeArgs xd dt xc ct)). split; [done|].
      exists argv, es. split; [done|]. split; [done|]. exists d, c. split; [exact Eo|done].
    - apply bind_Some in H as (l & H & Hm). injection Hm as <-.
      apply subcommand_operands in H as (es & Hs & Hl & H).
      destruct (operands es) as [|n [|d [|x ops]]] eqn:Eo; try discriminate Hl.
      simpl in H. destruct (parse_usize n) as [xn|] eqn:En; [|done]. destruct (parse_f64 d) as [xd|] eqn:Ed; [|done].
      simpl in H. injection H as <-. exists (DensityArgs_ (mkDensityArgs (N.to_nat xn) xd)). split; [done|].
      exists argv, es. split; [done|]. split; [done|]. exists n, d. split; [exact Eo|]. cbn [d_num_nodes d_edge_density_multiplier].
      rewrite N2Nat.id. split; [by apply parse_usize_spec|done]. }
  split.
  - intros m H. destruct (Hcases m H) as (a & Ha & _). by exists a.
  - intros a. split.
    + intros (m & Hm & Ha). destruct (Hcases m Hm) as (a' & Ha' & H). rewrite Ha in Ha'. by injection Ha' as <-.
    + intros (rest & es & Hs & H). destruct a as [[xd dt xc ct]|[n xd]].
      * destruct H as (-> & d & c & Ho & Hd & Hc). cbn in Hd, Hc. change (operands es = [d; c; dt; ct]) in Ho.
        eexists. split.
        -- unfold benchmark_matches. rewrite String.eqb_refl. apply bind_Some. eexists. split; [|done].
           apply subcommand_operands. exists es. split; [done|]. rewrite Ho. split; [done|].
           simpl. rewrite Hd. simpl. rewrite Hc. done.
        -- done.
      * destruct H as (-> & sn & sd & Ho & Hn & Hd). cbn [d_num_nodes d_edge_density_multiplier] in Hn, Hd.
        change (operands es = [sn; sd]) in Ho. apply parse_usize_spec in Hn.
        eexists. split.
        -- unfold benchmark_matches. simpl (String.eqb "density" "node"). rewrite String.eqb_refl.
           apply bind_Some. eexists. split; [|done].
           apply subcommand_operands. exists es. split; [done|]. rewrite Ho. split; [done|].
           simpl. rewrite Hn. simpl. rewrite Hd. done.
        -- simpl. by rewrite Nat2N.id.
Qed.
