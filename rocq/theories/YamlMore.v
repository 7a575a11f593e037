(** * The fallback configurator (C70) *)
From Coq Require Import String List Arith ZArith NArith Bool Lia.
From Verif Require Import Base LevelModel EventModel TreeModel SysModel SysSpec SysBase SysInv SysOps SysSteps SysFrame SysFuel SysProps SysMore
  YamlModel YamlSpec YamlOutSpec YamlActSpec YamlFacts YamlConf.
Import ListNotations.
Local Open Scope string_scope.
Local Open Scope list_scope.

Section More.
Variable L : lib.
Variable ord : list nat -> list nat.
Variable fuel : nat.
Variable dbg : bool.

Theorem fallback_makes lv color w : constructible L (w_busy w) (fallback_desc lv color) ->
  exists w' G, fallback L ord fuel dbg lv color w = (w', Val (mkResult false true (fallback_message lv color))) /\
    groups (w_sys w') = groups (w_sys w) ++ [G] /\
    G = mkGroup "*" None (Some (length (sinks (w_sys w)))) false lv false /\
    sinks (w_sys w') = sinks (w_sys w) ++ ["console"] /\
    sink_named (w_sys w') "console" (length (sinks (w_sys w))) /\ group_named (w_sys w') "*" (length (groups (w_sys w))) /\
    loggers (w_sys w') = loggers (w_sys w) /\ lmap (w_sys w') = lmap (w_sys w) /\ configured (w_sys w') = configured (w_sys w) /\
    (forall n, n <> "*" -> find (gmap (w_sys w')) n = find (gmap (w_sys w)) n) /\
    (forall n, n <> "console" -> find (smap (w_sys w')) n = find (smap (w_sys w)) n) /\
    w_busy w' = w_busy w /\
    w_log w' = w_log w ++ [ASink (fallback_desc lv color); ACall (MakeGroup "*" None (Some "console") (Some lv))].
Proof.
  intros [B _]. unfold fallback, world_sink. fold (fallback_desc lv color). rewrite B. cbn [fallback_desc d_kind d_name andb].
  unfold world_call. cbn [step w_sys]. unfold construct, g_construct.
  cbn [smap gmap groups sinks loggers lmap configured with_groups]. rewrite SysBase.find_assign_same. cbn [fst snd].
  eexists. eexists. split; [reflexivity|]. unfold register, sink_named, group_named. cbn -[find assign levelToStr].
  repeat match goal with |- _ /\ _ => split end; try reflexivity.
  - apply SysBase.find_assign_same.
  - apply SysBase.find_assign_same.
  - intros n N. rewrite SysBase.find_assign_other by exact N. destruct (find (gmap (w_sys w)) "*"); [reflexivity|]. now apply SysBase.find_assign_other.
  - intros n N. now apply SysBase.find_assign_other.
  - apply orb_false_r.
  - now rewrite <- app_assoc.
Qed.
Theorem fallback_throws lv color w what : build L (fallback_desc lv color) = Some what ->
  fallback L ord fuel dbg lv color w = (w, Exn what).
Proof. intros B. unfold fallback, world_sink. fold (fallback_desc lv color). now rewrite B. Qed.

Hypothesis Hord : rearranges ord.

(** Used alone: every logger gets its level and goes to the console. *)
Theorem configure_fallback s lv color busy : reachable ord dbg usual_sinks s -> configured s = false -> gmap s = [] ->
  constructible L busy (fallback_desc lv color) -> enough s + 2 <= fuel ->
  exists s', configure ord fuel dbg s (script_of (fallback L ord fuel dbg lv color) busy s) =
      (s', (Some (mkResult false true (fallback_message lv color)), RUnit)) /\
    reachable ord dbg usual_sinks s' /\
    forall x g l, g <> "*" -> (forall i, ~ live_named s' x i) ->
      exists s'' K, step ord (enough s') dbg s' (GetLogger x g None l) = (s'', RLogger (length (loggers s'))) /\
        added s' s'' K /\ l_name K = x /\ l_alive K = true /\ l_level K = (match l with Some l => l | None => lv end) /\
        sink_named s'' "console" (match l_sink K with Some k => k | None => 0 end) /\ l_sink K <> None.
Proof.
  intros R C G B F. set (w := mkWorld (with_configured s) busy []).
  destruct (fallback_makes lv color w B) as (w' & Gr & E & E1 & -> & E2 & E3 & E4 & E5 & E6 & E7 & E8 & E9 & E10 & E11).
  set (cs := [MakeSink "console"; MakeGroup "*" None (Some "console") (Some lv)]).
  assert (RW : reachable ord dbg usual_sinks (with_configured s)) by (apply reach_configure; exact R).
  assert (EO : each_ok ord fuel dbg usual_sinks (with_configured s) cs).
  { cbn [each_ok cs]. split; [repeat split|]. split; [|exact I]. split; [split; [exact I|]|exact I]. cbn. intros (i & x & Fi & _). cbn in Fi. rewrite G in Fi. discriminate. }
  assert (RR : exists os, run ord fuel dbg (with_configured s) cs = (w_sys w', os) /\ ~ In RUB os).
  { revert E. unfold fallback, world_sink. fold (fallback_desc lv color). rewrite (proj1 B). cbn [fallback_desc d_kind d_name andb].
    unfold world_call. cbn [run cs]. destruct (step ord fuel dbg (with_configured s) (MakeSink "console")) as [s1 o1] eqn:S1.
    assert (o1 <> RUB /\ o1 <> RHang) by (cbn in S1; inversion S1; split; discriminate). change (w_sys w) with (with_configured s). rewrite S1. cbn [w_sys].
    destruct (step ord fuel dbg s1 (MakeGroup "*" None (Some "console") (Some lv))) as [s2 o2] eqn:S2.
    intros Q. assert (o2 <> RUB /\ o2 <> RHang /\ s2 = w_sys w').
    { destruct o2; inversion Q; subst; repeat split; discriminate. }
    exists [o1; o2]. destruct H as [Ha Hb], H0 as (Hc & Hd & ->). split; [destruct o1, o2; congruence|].
    intros [Q1|[Q1|[]]]; congruence. }
  destruct RR as (os & ER & NU).
  assert (LG : map call_of (w_log w') = cs) by (rewrite E11; reflexivity).
  destruct (run_reachable ord Hord dbg usual_sinks (fun s c H => proj1 H) cs fuel (with_configured s) RW EO) as [R1 _].
  { unfold enough in *. cbn in *. lia. }
  rewrite ER in R1. cbn [fst] in R1.
  pose proof (configure_usual ord Hord dbg fuel s (script_of (fallback L ord fuel dbg lv color) busy s) R C) as CU.
  unfold script_of in *. fold w in CU |- *. rewrite E in *. cbn [sc_calls sc_end] in *. rewrite LG in *. rewrite ER in CU.
  destruct (CU EO ltac:(unfold enough in *; cbn in *; lia) NU) as (out & CO & M).
  assert (GM : forall e, In e (gmap (w_sys w')) -> fst e = "*").
  { intros [n i] Hi. cbn. destruct (String.eqb_spec n "*") as [|N]; auto. exfalso.
    pose proof (reachable_mono ord dbg usual_sinks usual _ (fun s c H => proj1 H) R1) as RU. pose proof (usual_inv ord Hord dbg _ RU) as I1.
    assert (Q : find (gmap (w_sys w')) n = None) by (rewrite E8 by exact N; cbn; now rewrite G).
    apply find_None in Q. apply Q. change n with (fst (n, i)). now apply in_map. }
  assert (NW : forall e, In e (gmap (w_sys w')) -> sends_nowhere (w_sys w') e = false).
  { intros e He. unfold sends_nowhere. rewrite (GM e He). reflexivity. }
  assert (EX : existsb (sends_nowhere (w_sys w')) (gmap (w_sys w')) = false).
  { destruct (existsb _ _) eqn:Q; auto. apply existsb_exists in Q as (e & He & Q). rewrite NW in Q by exact He. discriminate. }
  assert (FL : filter (sends_nowhere (w_sys w')) (gmap (w_sys w')) = []).
  { clear - NW. revert NW. generalize (sends_nowhere (w_sys w')). induction (gmap (w_sys w')) as [|e m IH]; intros f NW; cbn; auto.
    rewrite NW by (now left). apply IH. intros; apply NW; now right. }
  exists (w_sys w'). split.
  { rewrite CO. f_equal. f_equal. f_equal. rewrite EX, FL in M. destruct (gmap (w_sys w')) eqn:Q; [unfold group_named in E4; rewrite Q in E4; discriminate|].
    rewrite M. cbn [has_error has_warning message]. rewrite app_nil_r. reflexivity. }
  split; [exact R1|]. intros x g l Hg Hl.
  pose proof (reachable_mono ord dbg usual_sinks usual _ (fun s c H => proj1 H) R1) as RU.
  destruct (get_fallback ord Hord dbg (w_sys w') x g (length (groups (w_sys w))) (mkGroup "*" None (Some (length (sinks (w_sys w)))) false lv false) None l RU) as (s'' & K & S & A & HN); auto.
  { left. intros i. unfold group_named. rewrite E8 by exact Hg. cbn. rewrite G. discriminate. }
  { rewrite E1, nth_error_app2, Nat.sub_diag by lia. reflexivity. }
  { discriminate. }
  exists s'', K. split; [exact S|]. split; [exact A|]. destruct HN as (N1 & N2 & N3 & N4 & N5). cbn [g_level g_sink] in *. destruct N5 as [N5 N6].
  split; [exact N1|]. split; [exact N3|]. split; [destruct l; apply N4|]. rewrite N5. split; [|discriminate].
  destruct A as (_ & _ & _ & _ & A & _). unfold sink_named. rewrite A. exact E3.
Qed.
End More.
