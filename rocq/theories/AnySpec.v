(** * Vocabulary for C126: whatever configures the system *)
From Coq Require Import String NArith List.
From Verif Require Import LevelModel YamlModel YamlActSpec DeploySpec.
Import ListNotations.

(** The configurators of the library: the one for want of a better one, a document, a document on
    top of another configurator (fallback_configurator.hpp, configurator_from_yaml.hpp). *)
Inductive configures (L : lib) (ord : list nat -> list nat) (fuel : nat) (dbg : bool) : configurator -> Prop :=
| by_fallback lv color : configures L ord fuel dbg (fallback L ord fuel dbg lv color)
| by_document src : configures L ord fuel dbg (yaml L ord fuel dbg None src)
| on_top c src : configures L ord fuel dbg c -> configures L ord fuel dbg (yaml L ord fuel dbg (Some c) src).

(** All sinks of a program: those that the configuration has made, and those that the program makes
    itself afterwards, with sizes such as a document can ask for; composites of sinks made before.
    Their names are new: a sink whose name is taken away may be destroyed in use (C84). *)
Definition all_sinks (L : lib) (w : world) (ds : list sink_desc) : Prop :=
  exists later, ds = sinks_of (w_log w) ++ later /\
    (forall d z, In d later -> sizes_of d = Some z -> sane_sizes L z) /\
    (NoDup (map d_name later) /\ forall d, In d later -> ~ In (d_name d) ("*"%string :: map d_name (sinks_of (w_log w)))) /\
    forall j d ks, nth_error later j = Some d -> d_kind d = KMulti ks -> Forall (fun k => k <= List.length (sinks_of (w_log w)) + j) ks.
