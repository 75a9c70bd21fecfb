(** Maps whose keys have not kept their contracts.

    [misused]: a client built a map with keys that behave, and then inserted,
    removed, transformed and transmuted, also two maps jointly, with keys, values
    and closures that answered anything.  [unequal]: the hashes stayed in order
    ([steady] of SpecAsk.v, [clone_steady] and [answer_steady] of SpecAskT.v,
    [tm_steady], [mt_steady], [mm_steady] and [jsteady] of SpecAskJ.v), only [==] answered
    anything. *)
From Coq Require Import NArith List Bool.
From Verif Require Import Base Words Flag Bia Node Api Reach Trans Transform Eff EffApi Ask SpecAsk AskT SpecAskT AskJ SpecAskJ AskTw.
Import ListNotations.
Open Scope N_scope.

Section Misuse.
Context {E : Env}.

Inductive misused : forall {K V : Type}, trie K V -> Prop :=
| mis_reach K V (KK : Key K) (m : trie K V) : reachable m -> misused m
| mis_insert K V L W (m : trie K V) (q : L) (w : W) replace tr m' e prev :
    misused m -> exec (ask_insert m q w replace) tr (Ret (Ok (m', e, prev))) -> misused m'
| mis_remove K V L W (m : trie K V) (q : L) tr m' e :
    misused m -> exec (ask_remove (W := W) m q) tr (Ret (Ok (m', e))) -> misused m'
| mis_transform K V R (m : trie K V) st (w : tway R) tr m' r o :
    misused m -> exec (ask_transform st w m) tr (Ret (m', r, o)) -> misused m'
| mis_transmute K V S X R (m : trie K V) (w : mway R) tr (m' : trie S X) r :
    misused m -> exec (ask_transmute w m) tr (Ret (m', r)) -> misused m'
| mis_tm K V L W R (m : trie K V) (right : trie L W) st tr m' (r : R) o :
    misused m -> misused right -> exec (ask_tm st TwClosure TwClosure MwClosure m right) tr (Ret (m', r, o)) -> misused m'
| mis_mt K V L W R (m : trie K V) (right : trie L W) st tr m' (r : R) o :
    misused m -> misused right -> exec (ask_mt st TwClosure MwClosure TwClosure m right) tr (Ret (m', r, o)) -> misused m'
| mis_mm K V L W S X R (m : trie K V) (right : trie L W) tr (m' : trie S X) (r : R) :
    misused m -> misused right -> exec (ask_mm MwClosure MwClosure MwClosure m right) tr (Ret (m', r)) -> misused m'
| mis_tt K V R (m right : trie K V) st wb wl wr tr m' (r : R) o :
    misused m -> misused right -> exec (ask_tt st wb wl wr m right) tr (Ret (m', r, o)) -> misused m'.

Inductive unequal : forall {K V : Type} {KK : Key K}, trie K V -> Prop :=
| une_reach K V (KK : Key K) (m : trie K V) : reachable m -> unequal m
| une_insert K V (KK : Key K) L W (KL : Key L) (m : trie K V) (q : L) (w : W) replace tr m' e prev :
    unequal m -> Forall steady tr -> exec (ask_insert m q w replace) tr (Ret (Ok (m', e, prev))) -> unequal m'
| une_remove K V (KK : Key K) L W (KL : Key L) (m : trie K V) (q : L) tr m' e :
    unequal m -> Forall steady tr -> exec (ask_remove (W := W) m q) tr (Ret (Ok (m', e))) -> unequal m'
| une_transform K V (KK : Key K) R (m : trie K V) st (w : tway R) tr m' r o :
    unequal m -> Forall clone_steady tr -> exec (ask_transform st w m) tr (Ret (m', r, o)) -> unequal m'
| une_transmute K V (KK : Key K) S X (KS : Key S) R (m : trie K V) (w : mway R) tr (m' : trie S X) r :
    unequal m -> Forall answer_steady tr -> exec (ask_transmute w m) tr (Ret (m', r)) -> unequal m'
| une_tm K V (KK : Key K) L W (KL : Key L) R (m : trie K V) (right : trie L W) st tr m' (r : R) o :
    unequal m -> unequal right -> Forall tm_steady tr -> exec (ask_tm st TwClosure TwClosure MwClosure m right) tr (Ret (m', r, o)) -> unequal m'
| une_mt K V (KK : Key K) L W (KL : Key L) R (m : trie K V) (right : trie L W) st tr m' (r : R) o :
    unequal m -> unequal right -> Forall mt_steady tr -> exec (ask_mt st TwClosure MwClosure TwClosure m right) tr (Ret (m', r, o)) -> unequal m'
| une_mm K V (KK : Key K) L W (KL : Key L) S X (KS : Key S) R (m : trie K V) (right : trie L W) tr (m' : trie S X) (r : R) :
    unequal m -> unequal right -> Forall mm_steady tr -> exec (ask_mm MwClosure MwClosure MwClosure m right) tr (Ret (m', r)) -> unequal m'
| une_tt K V (KK : Key K) R (m right : trie K V) st wb wl wr tr m' (r : R) o :
    unequal m -> unequal right -> Forall jsteady tr -> exec (ask_tt st wb wl wr m right) tr (Ret (m', r, o)) -> unequal m'.

End Misuse.
