(** Model of the log environments of flows (include/flow/log.hpp). The log lines and
    drawings of flows are in FlowModel.v.

    Simplification: an environment is an element of any type with decidable equality
    (in the code: a type, compared with std::is_same_v). *)
From Coq Require Import String Bool.
Local Open Scope string_scope.

Section Env.
Variable Env : Type.
Variable same : forall a b : Env, {a = b} + {a <> b}.
(** default_log_env (include/flow/log.hpp:17-18). *)
Variable default_env : Env.
(** The specialisations of log_env that the program declares. *)
Variable special : string -> option Env.
(** log_env (include/flow/log.hpp:19-20). *)
Definition log_env (name : string) : Env := match special name with Some e => e | None => default_env end.
(** get_log_env with the fallback "default" (include/flow/log.hpp:26-40)... *)
Definition env_of_flow (name : string) : Env :=
  if same (log_env name) default_env then log_env "default" else log_env name.
(** ...and with the fallback that run_func gives for a step (include/flow/func_list.hpp:22-24). *)
Definition env_of_step (flow step : string) : Env :=
  if same (log_env step) default_env then if flow =? "default" then log_env "default" else env_of_flow flow
  else log_env step.
End Env.
