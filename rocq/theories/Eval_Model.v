(** Model of rapidudf/exec/eval_engine.{h,cc}: eval_function and eval_expression with their shared cache. *)
From Coq Require Import List Bool NArith.
Import ListNotations.
From Verif Require Import Base LRU_Model.

Section Engine.
(** Source texts, argument descriptions (JitCompiler::Arg, a name and a schema), signatures (return and argument
    types; compared by FunctionDesc::CompareSignature, meta/function.cc:173-186, here as C++ types, see C08 for
    when equal DTypes are equal types) and compiled functions. *)
Context {source arg sig code : Type}.
Variable source_dec : forall a b : source, {a = b} + {a <> b}.
Variable sig_dec : forall a b : sig, {a = b} + {a <> b}.

(** What the engine calls: CompileSource with GetParsedAST and GetFunctionPtr (the functions of a source with their
    signatures, in source order), CompileDynObjExpression, and the functions themselves. [reenters]: the function
    evaluates something through the engine itself while it runs. [intact]: a JitFunction object that was
    freed can still be read. *)
Record world := {
  compile_functions : source -> option (list (sig * code));
  compile_expression : source -> list arg -> sig -> option code;
  reenters : code -> bool;
  intact : bool
}.
Variable w : world.

(** eval_engine.h:44-51, EvalCacheValue.funcs by source. Simplified: latest_visit_time is never read. *)
Definition cache : Type := lru source (list (sig * code)).
(** eval_engine.cc:19-23. *)
Definition new_cache : cache := lru_new 10000%N.

Inductive call :=
| C_function (s : source) (g : sig)
| C_expression (s : source) (names : list arg) (g : sig).

(** What a call answers: the result of the compiled function it calls (the arguments are those of the call), or an
    error status. *)
Inductive answer := Called (c : code) | Status.

(** eval_engine.h:69-75 and 128-134. *)
Fixpoint first_match (fs : list (sig * code)) (g : sig) : option code :=
  match fs with
  | [] => None
  | (g', c) :: fs' => if sig_dec g' g then Some c else first_match fs' g
  end.
(** eval_engine.h:87-102: each match replaces the one before. *)
Definition last_match (fs : list (sig * code)) (g : sig) : option code := first_match (rev fs) g.

(** eval_engine.h:63-78 and 118-136, under the mutex, which is also held while the function found runs: if it enters
    the engine again, it waits for the mutex forever. None: nothing found, go on compiling. *)
Definition begin (k : call) (c : cache) : outcome (cache * option answer) :=
  match k with
  | C_function s g =>
      do! (c', found) <- lru_get source_dec c s ;
      match found with
      | Some item =>
          match first_match item g with
          | Some f => if reenters w f then Hang else Ret (c', Some (Called f))
          | None => Ret (c', Some Status)
          end
      | None => Ret (c', None)
      end
  | C_expression s _ g =>
      do! (c', found) <- lru_get source_dec c s ;
      match found with
      | Some item =>
          match first_match item g with
          | Some f => if reenters w f then Hang else Ret (c', Some (Called f))
          | None => Ret (c', None)
          end
      | None => Ret (c', None)
      end
  end.

(** eval_engine.h:79-110: the JitFunction belongs to the variable cache_func of one iteration of the loop (line 93) and is
    called after the loop; what the cache gets is a copy made before the object existed (line 98).
    eval_engine.h:137-172: when the source is in the cache by now, the function is added to the copy that get
    returns (lines 162-165). *)
Definition finish (k : call) (c : cache) : outcome (cache * answer) :=
  match k with
  | C_function s g =>
      match compile_functions w s with
      | None => Ret (c, Status)
      | Some fs =>
          do! c' <- lru_insert source_dec c s fs ;
          match last_match fs g with
          | Some f => if intact w then Ret (c', Called f) else UB
          | None => Ret (c', Status)
          end
      end
  | C_expression s names g =>
      match compile_expression w s names g with
      | None => Ret (c, Status)
      | Some f =>
          do! (c1, found) <- lru_get source_dec c s ;
          do! c2 <- match found with
                    | Some _ => Ret c1
                    | None => lru_insert source_dec c1 s [(g, f)]
                    end ;
          Ret (c2, Called f)
      end
  end.

(** Threads make calls; the mutex makes the two halves of a call atomic (compiling touches nothing shared).
    [waiting]: the calls between their halves. [answers]: the calls that returned, latest first. *)
Record engine := { the_cache : cache; waiting : list call; answers : list (call * answer) }.
Definition new_engine : engine := {| the_cache := new_cache; waiting := []; answers := [] |}.

Inductive event := E_begin (k : call) | E_finish (n : nat).

Fixpoint drop_nth {A} (n : nat) (l : list A) : list A :=
  match n, l with
  | _, [] => []
  | O, _ :: l' => l'
  | S n', x :: l' => x :: drop_nth n' l'
  end.

(** [E_finish n]: the n-th of the waiting calls goes on; nothing happens if there is none. *)
Definition step (e : event) (t : engine) : outcome engine :=
  match e with
  | E_begin k =>
      do! (c, a) <- begin k (the_cache t) ;
      match a with
      | Some a => Ret {| the_cache := c; waiting := waiting t; answers := (k, a) :: answers t |}
      | None => Ret {| the_cache := c; waiting := k :: waiting t; answers := answers t |}
      end
  | E_finish n =>
      match nth_error (waiting t) n with
      | None => Ret t
      | Some k =>
          do! (c, a) <- finish k (the_cache t) ;
          Ret {| the_cache := c; waiting := drop_nth n (waiting t); answers := (k, a) :: answers t |}
      end
  end.

Fixpoint run (l : list event) (t : engine) : outcome engine :=
  match l with
  | [] => Ret t
  | e :: l' => do! t' <- step e t ; run l' t'
  end.
End Engine.
Arguments world : clear implicits.
Arguments engine : clear implicits.
