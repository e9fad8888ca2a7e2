(** * Proofs about threading: the paths of the graph are the runs of the script *)

From Coq Require Import String List Bool Arith Lia Permutation.
From Verif Require Import AstModel SymbolModel SymbolSpec SymbolProofs ThreadModel ThreadSpec ThreadProofs.
Import ListNotations.

(** ** Segments *)

Definition agree (g G : links) (V : list nat) : Prop :=
  forall v, In v V -> successors G v = successors g v.

(** The paths of a graph from [l] on are the traces [T], which end in [z]; that depends on the
    successors of the vertices [V] only. *)
Record seg (g : links) (V : list nat) (l z : nat) (T : list nat -> Prop) : Prop := {
  seg_some : exists u, T u;
  seg_end : forall u, T u -> last u l = z;
  seg_in : forall u v, T u -> In v u -> v = z \/ In v V;
  seg_closed : forall v, In v V -> successors g v <> [];
  seg_path : forall G u, agree g G V -> T u -> path G (l :: u);
  seg_sound : forall G p, agree g G V -> path G (l :: p) ->
    exists u, T u /\ ((exists q, p = u ++ q) \/ (exists q, u = p ++ q)) }.

Lemma last_app {A} (u v : list A) d : last (u ++ v) d = last v (last u d).
Proof.
  revert d. induction u as [|a u IH]; intros d; [easy|].
  assert (E : forall (w : list A) x, last (x :: w) d = last w x).
  { intros w. induction w as [|b w IHw]; intros x; [easy|]. change (last (b :: w) d = last (b :: w) x).
    rewrite IHw. destruct w as [|c w]; [easy|]. change (last (c :: w) b = last (c :: w) x).
    clear. revert c. induction w as [|e w IH]; intros c; [easy|]. apply (IH e). }
  assert (E' : forall (w : list A) x d', last (x :: w) d' = last w x).
  { intros w. induction w as [|b w IHw]; intros x d'; [easy|]. change (last (b :: w) d' = last (b :: w) x).
    rewrite (IHw b d'), (IHw b x). easy. }
  simpl (_ ++ _). rewrite !E'. apply IH.
Qed.

Lemma last_cons {A} (a : A) u d : last (a :: u) d = last u a.
Proof. apply (last_app [a] u d). Qed.

Lemma path_app G u : forall l v, path G (l :: u ++ v) <-> path G (l :: u) /\ path G (last u l :: v).
Proof.
  induction u as [|a u IH]; intros l v.
  - simpl. tauto.
  - rewrite last_cons. simpl (_ ++ _). split.
    + intros (I & P). apply IH in P as (P1 & P2). split; [|easy]. now split.
    + intros ((I & P1) & P2). split; [easy|]. apply IH. now split.
Qed.

Lemma seg_nil g l : seg g [] l l (fun u => u = []).
Proof.
  constructor.
  - eauto.
  - intros u ->. easy.
  - intros u v ->. easy.
  - easy.
  - intros G u _ ->. easy.
  - intros G p _ _. exists []. split; [easy|]. left. now exists p.
Qed.

Lemma seg_edge g l v : successors g l = [v] -> seg g [l] l v (fun u => u = [v]).
Proof.
  intros S. constructor.
  - eauto.
  - intros u ->. easy.
  - intros u w -> [->|[]]. now left.
  - intros w [<-|[]]. now rewrite S.
  - intros G u A ->. simpl. rewrite A by (now left). rewrite S. simpl. auto.
  - intros G p A P. exists [v]. split; [easy|]. destruct p as [|a p].
    + right. now exists [v].
    + left. exists p. destruct P as (I & _). rewrite A, S in I by (now left). destruct I as [<-|[]]. easy.
Qed.

Definition joined (T1 T2 : list nat -> Prop) (u : list nat) : Prop :=
  exists u1 u2, u = u1 ++ u2 /\ T1 u1 /\ T2 u2.

Lemma agree_app g G A B : agree g G (A ++ B) <-> agree g G A /\ agree g G B.
Proof.
  unfold agree. split.
  - intros H. split; intros v I; apply H, in_app_iff; auto.
  - intros (H1 & H2) v I. apply in_app_iff in I as [I|I]; auto.
Qed.

Lemma seg_app g V1 V2 a b c T1 T2 : seg g V1 a b T1 -> seg g V2 b c T2 ->
  (In b V2 \/ b = c) -> seg g (V1 ++ V2) a c (joined T1 T2).
Proof.
  intros [S1 E1 I1 C1 P1 D1] [S2 E2 I2 C2 P2 D2] HB. constructor.
  - destruct S1 as (u1 & H1), S2 as (u2 & H2). exists (u1 ++ u2), u1, u2. easy.
  - intros u (u1 & u2 & -> & H1 & H2). rewrite last_app, (E1 _ H1). now apply E2.
  - intros u v (u1 & u2 & -> & H1 & H2) I. rewrite in_app_iff in *.
    destruct I as [I|I].
    + destruct (I1 _ _ H1 I) as [->|]; [|auto]. destruct HB as [ | -> ]; auto.
    + destruct (I2 _ _ H2 I); auto.
  - intros v I. apply in_app_iff in I as [I|I]; auto.
  - intros G u A (u1 & u2 & -> & H1 & H2). apply agree_app in A as (A1 & A2).
    apply path_app. split; [now apply P1|]. rewrite (E1 _ H1). now apply P2.
  - intros G p A P. apply agree_app in A as (A1 & A2).
    destruct (D1 G p A1 P) as (u1 & H1 & [(q & ->)|(q & ->)]).
    + apply path_app in P as (_ & P). rewrite (E1 _ H1) in P.
      destruct (D2 G q A2 P) as (u2 & H2 & [(q' & ->)|(q' & ->)]).
      * exists (u1 ++ u2). split; [now exists u1, u2|]. left. exists q'. now rewrite app_assoc.
      * exists (u1 ++ q ++ q'). split; [now exists u1, (q ++ q')|]. right. exists q'. now rewrite app_assoc.
    + destruct S2 as (u2 & H2). exists ((p ++ q) ++ u2). split; [now exists (p ++ q), u2|].
      right. exists (q ++ u2). now rewrite app_assoc.
Qed.

Lemma seg_equiv g V l z (T T' : list nat -> Prop) : (forall u, T u <-> T' u) -> seg g V l z T -> seg g V l z T'.
Proof.
  intros H [S E I C P D]. constructor.
  - destruct S as (u & U). exists u. now apply H.
  - intros u U. apply E, H, U.
  - intros u v U. apply I, H, U.
  - easy.
  - intros G u A U. apply P; [easy|]. now apply H.
  - intros G p A Q. destruct (D G p A Q) as (u & U & X). exists u. split; [now apply H|easy].
Qed.

Lemma seg_frame g g' V l z T : agree g g' V -> seg g V l z T -> seg g' V l z T.
Proof.
  intros A [S E I C P D].
  assert (AA : forall G, agree g' G V -> agree g G V) by (intros G B v J; rewrite (B v J); now apply A).
  constructor; auto.
  - intros v J. rewrite (A v J). now apply C.
  - intros G p B. apply D. now apply AA.
Qed.

(** Two branches. *)
Lemma seg_choice g V1 V2 i a b z T1 T2 : successors g i = [a; b] -> seg g V1 a z T1 -> seg g V2 b z T2 ->
  (In a V1 \/ a = z) -> (In b V2 \/ b = z) ->
  seg g (i :: V1 ++ V2) i z (fun u => exists w, (u = a :: w /\ T1 w) \/ (u = b :: w /\ T2 w)).
Proof.
  intros S [S1 E1 I1 C1 P1 D1] [S2 E2 I2 C2 P2 D2] HA HB.
  assert (AG : forall G, agree g G (i :: V1 ++ V2) -> successors G i = [a; b] /\ agree g G V1 /\ agree g G V2).
  { intros G A. split; [rewrite A by (now left); easy|]. apply agree_app. intros v I. apply A. now right. }
  constructor.
  - destruct S1 as (u & U). exists (a :: u), u. now left.
  - intros u (w & [(-> & H)|(-> & H)]); rewrite last_cons; auto.
  - intros u v (w & [(-> & H)|(-> & H)]) [<-|I]; simpl; rewrite in_app_iff.
    + destruct HA as [ | -> ]; auto.
    + destruct (I1 _ _ H I); auto.
    + destruct HB as [ | -> ]; auto.
    + destruct (I2 _ _ H I); auto.
  - intros v [<-|I]; [now rewrite S|]. apply in_app_iff in I as [I|I]; auto.
  - intros G u A U. destruct (AG G A) as (SG & A1 & A2).
    destruct U as (w & [(-> & H)|(-> & H)]); (split; [rewrite SG; simpl; auto|]); auto.
  - intros G p A P. destruct (AG G A) as (SG & A1 & A2). destruct p as [|x p].
    + destruct S1 as (u & U). exists (a :: u). split; [exists u; now left|]. right. now exists (a :: u).
    + destruct P as (I & P). rewrite SG in I. destruct I as [<-|[<-|[]]].
      * destruct (D1 G p A1 P) as (u & U & X). exists (a :: u). split; [exists u; now left|].
        destruct X as [(q & ->)|(q & ->)]; [left|right]; now exists q.
      * destruct (D2 G p A2 P) as (u & U & X). exists (b :: u). split; [exists u; now right|].
        destruct X as [(q & ->)|(q & ->)]; [left|right]; now exists q.
Qed.

(** ** Environments *)

Definition fn_vertices (f : function) : list nat := fn_id f :: fn_args f ++ block_vertices (fn_block f).
Definition env_vertices (env : list function) : list nat := flat_map fn_vertices env.

Definition rel (t : table (nat * nat)) (env : list function) : Prop :=
  forall n, value t n = option_map (fun p => (fn_id (fst p), block_sentinel (fn_block (fst p)))) (lookup env n).

Lemma lookup_split env n f outer : lookup env n = Some (f, outer) -> exists pre, env = pre ++ f :: outer.
Proof.
  induction env as [|g env IH]; simpl; [discriminate|]. destruct (String.eqb (fn_name g) n).
  - intros [= <- <-]. now exists [].
  - intros H. destruct (IH H) as (pre & ->). now exists (g :: pre).
Qed.

Lemma rel_tabs t env : rel t env -> tabs (fun v => In v (env_vertices env)) t.
Proof.
  intros R n d k E. rewrite R in E. destruct (lookup env n) as [[f outer]|] eqn:L; [|discriminate].
  simpl in E. injection E as <- <-. apply lookup_split in L as (pre & ->).
  assert (H : forall v, In v (fn_vertices f) -> In v (env_vertices (pre ++ f :: outer))).
  { intros v I. unfold env_vertices. apply in_flat_map. exists f. split; [|easy]. apply in_app_iff. right. now left. }
  split; apply H; unfold fn_vertices; [now left|]. right. apply in_app_iff. right.
  unfold block_vertices, block_vertices_. right. apply in_app_iff. right. now left.
Qed.

Definition untouched (s : thread) (env : list function) (v : nat) : Prop :=
  ~ In v (env_vertices env) /\ last_vertex s <> Some v /\
  forall a b, In (a, b) (graph s) -> a <> v /\ b <> v.

Definition fresh (s : thread) (env : list function) (L : list nat) : Prop :=
  NoDup L /\ forall v, In v L -> untouched s env v.

Definition own (L : list nat) (env : list function) (v : nat) : Prop := In v L \/ In v (env_vertices env).

Lemma NoDup_left {A} (l l' : list A) : NoDup (l ++ l') -> NoDup l.
Proof.
  induction l as [|a l IH]; [constructor|]. simpl. inversion_clear 1 as [|? ? N H'].
  constructor; [|auto]. intros I. apply N, in_app_iff. now left.
Qed.
Lemma NoDup_right {A} (l l' : list A) : NoDup (l ++ l') -> NoDup l'.
Proof. induction l as [|a l IH]; [easy|]. simpl. inversion_clear 1. auto. Qed.

Lemma fresh_app_l s env A B : fresh s env (A ++ B) -> fresh s env A.
Proof.
  intros (N & U). split; [now apply NoDup_left in N|]. intros v I. apply U, in_app_iff. now left.
Qed.

Lemma fresh_app_r s env A B : fresh s env (A ++ B) -> fresh s env B.
Proof.
  intros (N & U). split; [now apply NoDup_right in N|]. intros v I. apply U, in_app_iff. now right.
Qed.

Lemma NoDup_disjoint {A} (l l' : list A) v : NoDup (l ++ l') -> In v l -> In v l' -> False.
Proof.
  intros N I J. induction l as [|a l IH]; [easy|]. simpl in N. inversion_clear N as [|? ? NI N'].
  destruct I as [->|I]; [apply NI, in_app_iff; now right|auto].
Qed.

Lemma fresh_after X s s' env A B : fresh s env (A ++ B) -> reach X (own A env) s s' -> fresh s' env B.
Proof.
  intros F [(d & E & N) _ L]. pose proof (fresh_app_r _ _ _ _ F) as (NB & UB). destruct F as (ND & _).
  assert (H : forall v, In v B -> ~ allowed (own A env) s v).
  { intros v I [[J|J]|J].
    - eapply NoDup_disjoint; eauto.
    - now destruct (UB v I) as (U1 & _).
    - now destruct (UB v I) as (_ & U2 & _). }
  split; [easy|]. intros v I. destruct (UB v I) as (U1 & U2 & U3). split; [easy|]. split.
  - intros J. apply (H v I). now apply L.
  - intros a b J. rewrite E in J. apply in_app_iff in J as [J|J]; [now apply U3|].
    destruct (N a b J) as (N1 & N2). split; intros ->; now apply (H v I).
Qed.

Lemma fresh_last s env L i : fresh s env L -> ~ In i L -> fresh (with_last (Some i) s) env L.
Proof.
  intros (N & U) H. split; [easy|]. intros v I. destruct (U v I) as (U1 & U2 & U3). split; [easy|].
  split; [simpl; congruence|easy].
Qed.

Lemma fresh_same s s' env L : graph s' = graph s -> last_vertex s' = last_vertex s ->
  fresh s env L -> fresh s' env L.
Proof. intros G E (N & U). split; [easy|]. unfold untouched in *. now rewrite G, E. Qed.

Lemma fresh_none s env L v : fresh s env L -> In v L -> successors (graph s) v = [].
Proof. intros (_ & U) I. apply successors_none. intros w J. now apply (U v I) in J as (J & _). Qed.

Section Runs.
Variable skip : bool.

Definition fn_run (outer : list function) (f : function) (u : list nat) : Prop :=
  exists b, u = fn_args f ++ b /\ run_block skip outer (fn_block f) b true.

Definition linked (g : links) (env : list function) : Prop :=
  forall pre f outer, env = pre ++ f :: outer -> exists V,
    seg g V (fn_id f) (block_sentinel (fn_block f)) (fn_run outer f) /\ In (fn_id f) V /\
    (forall v, In v V -> In v (env_vertices (f :: outer))).

Lemma env_vertices_app pre env v : In v (env_vertices env) -> In v (env_vertices (pre ++ env)).
Proof. unfold env_vertices. rewrite flat_map_app, in_app_iff. auto. Qed.

Lemma linked_after (X W : nat -> Prop) s s' env : linked (graph s) env -> reach X W s s' ->
  (forall v, X v -> ~ In v (env_vertices env)) -> linked (graph s') env.
Proof.
  intros H [_ C _] D pre f outer E. destruct (H pre f outer E) as (V & S & IV & B). exists V.
  split; [|easy]. eapply seg_frame; [|exact S]. intros v I. apply C.
  - intros XV. apply (D v XV). rewrite E. now apply env_vertices_app, B.
  - now apply (seg_closed _ _ _ _ _ S).
Qed.

Lemma fresh_disjoint s env L : fresh s env L -> forall v, In v L -> ~ In v (env_vertices env).
Proof. intros (_ & U) v I. now apply U. Qed.

(** What a visit establishes: the traces from the last vertex [l] on. *)
Definition leadz (g : links) (env : list function) (L : list nat) (l z : nat) (T : list nat -> Prop) : Prop :=
  exists V, seg g V l z T /\
    (forall v, In v V -> v = l \/ own L env v) /\ (z = l \/ own L env z) /\ (In l V \/ l = z).
Definition leads (s' : thread) (env : list function) (L : list nat) (l : nat) (T : list nat -> Prop) : Prop :=
  exists z, last_vertex s' = Some z /\ leadz (graph s') env L l z T.

Lemma own_l A B env v : own A env v -> own (A ++ B) env v.
Proof. unfold own. rewrite in_app_iff. tauto. Qed.
Lemma own_r A B env v : own B env v -> own (A ++ B) env v.
Proof. unfold own. rewrite in_app_iff. tauto. Qed.

Lemma leadz_equiv g env L l z T T' : (forall u, T u <-> T' u) -> leadz g env L l z T -> leadz g env L l z T'.
Proof.
  intros H (V & S & R). exists V. split; [|easy]. now apply (seg_equiv _ _ _ _ T).
Qed.
Lemma leads_equiv s' env L l T T' : (forall u, T u <-> T' u) -> leads s' env L l T -> leads s' env L l T'.
Proof. intros H (z & Z & D). exists z. split; [easy|]. now apply (leadz_equiv _ _ _ _ _ T). Qed.

Lemma leadz_more g env L L' l z T : (forall v, own L env v -> own L' env v) ->
  leadz g env L l z T -> leadz g env L' l z T.
Proof.
  intros H (V & S & B & Z & N). exists V. split; [easy|]. split; [|split; [|easy]].
  - intros v I. destruct (B v I); auto.
  - destruct Z; auto.
Qed.

Lemma leadz_frame g g' env L l z T : leadz g env L l z T ->
  (forall v, successors g v <> [] -> v = l \/ own L env v -> successors g' v = successors g v) ->
  leadz g' env L l z T.
Proof.
  intros (V & S & B & R) H. exists V. split; [|easy]. eapply seg_frame; [|exact S].
  intros v I. apply H; [|now apply B]. now apply (seg_closed _ _ _ _ _ S).
Qed.

Lemma leadz_join g env A B a b c T1 T2 :
  leadz g env A a b T1 -> leadz g env B b c T2 -> leadz g env (A ++ B) a c (joined T1 T2).
Proof.
  intros (V1 & S1 & B1 & Z1 & N1) (V2 & S2 & B2 & Z2 & N2).
  exists (V1 ++ V2). split; [now apply (seg_app _ _ _ _ b)|].
  split; [|split].
  - intros v I. apply in_app_iff in I as [I|I].
    + destruct (B1 v I) as [->|O]; [now left|right; now apply own_l].
    + destruct (B2 v I) as [->|O]; [|right; now apply own_r].
      destruct Z1 as [->|O]; [now left|right; now apply own_l].
  - destruct Z2 as [->|O]; [|right; now apply own_r].
    destruct Z1 as [->|O]; [now left|right; now apply own_l].
  - rewrite in_app_iff. destruct N1 as [ | <- ]; [auto|]. destruct N2 as [ | <- ]; auto.
Qed.

Lemma leadz_edge g env a b : successors g a = [b] -> leadz g env [b] a b (fun u => u = [b]).
Proof.
  intros S. exists [a]. split; [now apply seg_edge|]. split; [intros v [<-|[]]; now left|].
  split; [right; left; now left|left; now left].
Qed.

(** Steps in sequence: the second step does not touch the vertices of the first one. *)
Lemma leadz_app s s1 g env A B l z1 z2 T1 T2 :
  last_vertex s = Some l -> fresh s env (A ++ B) ->
  leadz (graph s1) env A l z1 T1 ->
  (forall v, ~ In v B -> successors (graph s1) v <> [] -> successors g v = successors (graph s1) v) ->
  leadz g env B z1 z2 T2 ->
  leadz g env (A ++ B) l z2 (joined T1 T2).
Proof.
  intros L F H1 R H2. apply (leadz_join _ _ _ _ _ z1); [|easy].
  apply (leadz_frame _ _ _ _ _ _ _ H1). intros v C D. apply R; [|easy]. intros J.
  destruct D as [->|[K|K]].
  - apply fresh_app_r in F as (_ & U). now destruct (U l J) as (_ & U2 & _).
  - destruct F as (N & _). eapply NoDup_disjoint; eauto.
  - apply fresh_app_r in F as (_ & U). now destruct (U v J) as (U1 & _).
Qed.

Lemma leads_app s s1 s2 env A B l T1 T2 W :
  last_vertex s = Some l -> fresh s env (A ++ B) ->
  leads s1 env A l T1 ->
  reach (fun v => In v B) W s1 s2 ->
  (forall z, last_vertex s1 = Some z -> leads s2 env B z T2) ->
  leads s2 env (A ++ B) l (joined T1 T2).
Proof.
  intros L F (z1 & L1 & D1) R H. destruct (H z1 L1) as (z2 & L2 & D2). exists z2. split; [easy|].
  eapply leadz_app; eauto. intros v I. now apply (r_closed _ _ _ _ R).
Qed.

Lemma leads_nil s env L l : last_vertex s = Some l -> leads s env L l (fun u => u = []).
Proof. intros E. exists l. split; [easy|]. exists []. split; [apply seg_nil|]. split; [easy|]. auto. Qed.

Lemma leads_thread i s s' env l : last_vertex s = Some l -> thread_to i s = Some s' ->
  leads s' env [i] l (fun u => u = [i]).
Proof.
  intros L E. apply thread_to_some in E as [(E & _)|(l' & E & S & ->)]; [congruence|].
  rewrite L in E. injection E as <-. exists i. split; [easy|]. simpl. apply leadz_edge.
  now rewrite successors_app, S, successors_one, Nat.eqb_refl.
Qed.

(** ** Expressions *)

Definition expr_leads (e : texpr) : Prop := forall s s' env l,
  visit_expr e s = Some s' -> last_vertex s = Some l -> rel (functions s) env -> linked (graph s) env ->
  fresh s env (expr_vertices e) -> leads s' env (expr_vertices e) l (run_expr skip env e).

Lemma expr_reach e s s' env : visit_expr e s = Some s' -> rel (functions s) env ->
  fine (fun v => In v (expr_vertices e)) (own (expr_vertices e) env) s s'.
Proof.
  intros E R. eapply visit_expr_fine; [| |exact E].
  - intros n d k V. destruct (rel_tabs _ _ R n d k V). split; now right.
  - intros v I. now left.
Qed.

Lemma exprs_reach l s s' env : visits visit_expr l s = Some s' -> rel (functions s) env ->
  fine (fun v => In v (flat_map expr_vertices l)) (own (flat_map expr_vertices l) env) s s'.
Proof.
  intros E R. revert E.
  apply (visits_all _ (fine (fun v => In v (flat_map expr_vertices l)) (own (flat_map expr_vertices l) env))
           (fun s => rel (functions s) env)).
  - apply fine_refl.
  - apply fine_trans.
  - intros a b H (_ & Q & _). now rewrite Q.
  - intros x I a b H Q. apply (expr_reach _ _ _ env) in Q; [|easy]. destruct Q as (Q & ST). split; [|easy].
    eapply reach_weaken; [| |exact Q].
    + intros v J. apply in_flat_map. eauto.
    + intros v [J|J]; [left; apply in_flat_map; eauto|now right].
  - easy.
Qed.

Lemma exprs_leads l : Forall expr_leads l -> forall s s' env v,
  visits visit_expr l s = Some s' -> last_vertex s = Some v -> rel (functions s) env ->
  linked (graph s) env -> fresh s env (flat_map expr_vertices l) ->
  leads s' env (flat_map expr_vertices l) v (run_exprs skip env l).
Proof.
  induction 1 as [|e l HE HL IH]; intros s s' env v E L R K F; simpl in *.
  - injection E as <-. eapply leads_equiv; [|now apply leads_nil]. intros u. simpl. split.
    + intros ->. constructor. + now inversion 1.
  - destruct (visit_expr e s) as [s1|] eqn:E1; [|discriminate].
    pose proof (expr_reach _ _ _ _ E1 R) as (R1 & F1 & I1).
    assert (Rel1 : rel (functions s1) env) by now rewrite F1.
    assert (K1 : linked (graph s1) env).
    { eapply linked_after; [exact K|exact R1|]. apply fresh_disjoint with (s := s). now apply fresh_app_l in F. }
    assert (Fr1 : fresh s1 env (flat_map expr_vertices l)) by (eapply fresh_after; eauto).
    eapply leads_equiv.
    2:{ eapply (leads_app s s1 s'); [exact L|exact F| | |].
        - apply (HE s); auto. now apply fresh_app_l in F.
        - exact (proj1 (exprs_reach _ _ _ _ E Rel1)).
        - intros z LZ. apply (IH s1 s' env z); auto. }
    intros u. split.
    + intros (u1 & u2 & -> & H1 & H2). now constructor.
    + inversion 1; subst. now exists u0, v0.
Qed.

(** A step that threads one vertex more. *)
Lemma leads_then s s1 s2 env A l T i :
  last_vertex s = Some l -> fresh s env (A ++ [i]) -> leads s1 env A l T -> thread_to i s1 = Some s2 ->
  leads s2 env (A ++ [i]) l (fun u => exists w, u = w ++ [i] /\ T w).
Proof.
  intros L F H E. eapply leads_equiv.
  2:{ eapply (leads_app s s1 s2 env A [i] l T (fun u => u = [i]) (fun v => In v [i])); eauto.
      - eapply reach_thread; [|exact E]. now left.
      - intros z LZ. now apply (leads_thread i s1). }
  intros u. split.
  - intros (u1 & u2 & -> & H1 & ->). eauto.
  - intros (w & -> & H1). now exists w, [i].
Qed.

Lemma visit_expr_leads e : expr_leads e.
Proof.
  induction e using texpr_induction; intros s s' env v E L R K F; simpl in E.
  - simpl. eapply leads_equiv; [|eapply leads_thread; [exact L|exact E]]. intros u. simpl. split.
    + intros ->. constructor. + now inversion 1.
  - unthen. simpl in *.
    pose proof (exprs_leads _ H _ _ _ _ E0 L R K (fresh_app_l _ _ _ _ F)) as H0.
    pose proof (exprs_reach _ _ _ _ E0 R) as (R0 & F0 & I0).
    pose proof (leads_then _ _ _ _ _ _ _ _ L F H0 E1) as H1.
    pose proof (stay_thread _ _ _ E1) as (F1 & _).
    rewrite F1, F0, R in E. destruct (lookup env n) as [[f outer]|] eqn:LK; simpl in E.
    + unthen. injection E as <-.
      assert (R1 : reach (fun v => In v (flat_map expr_vertices l ++ [i]))
                (own (flat_map expr_vertices l ++ [i]) env) s s1).
      { eapply reach_trans.
        - eapply reach_weaken; [| |exact R0]; intros w J; [apply in_app_iff; now left|now apply own_l].
        - eapply reach_thread; [|exact E1]. left. apply in_app_iff. right. now left. }
      assert (K1 : linked (graph s1) env).
      { eapply linked_after; [exact K|exact R1|]. now apply fresh_disjoint with (s := s). }
      assert (L1 : last_vertex s1 = Some i).
      { apply thread_to_some in E1 as [(_ & ->)|(? & _ & _ & ->)]; easy. }
      destruct (lookup_split _ _ _ _ LK) as (pre & EN).
      destruct (K1 _ _ _ EN) as (V & SV & IV & BV).
      assert (R2 : reach (fun _ => False) (fun v => v = fn_id f) s1 s2) by (eapply reach_thread; eauto).
      assert (BE : forall w, In w (env_vertices (f :: outer)) -> In w (env_vertices env)).
      { intros w J. rewrite EN. now apply env_vertices_app. }
      assert (L2 : leads (with_last (Some (block_sentinel (fn_block f))) s2) env [] i
                (fun u => exists w, u = fn_id f :: w /\ fn_run outer f w)).
      { pose proof (leads_thread _ _ _ env _ L1 E2) as (z2 & Lz & V2 & S2 & B2 & Z2 & N2).
        assert (z2 = fn_id f) as ->.
        { apply thread_to_some in E2 as [(_ & ->)|(? & _ & _ & ->)]; simpl in Lz; now injection Lz as <-. }
        exists (block_sentinel (fn_block f)). split; [easy|]. simpl. exists (V2 ++ V). split.
        - eapply seg_equiv; [|eapply (seg_app _ V2 V _ (fn_id f)); [exact S2| |auto]].
          + intros u. split.
            * intros (u1 & u2 & -> & -> & J). exists u2. split; [reflexivity|exact J].
            * intros (w & -> & J). exists [fn_id f], w. split; [reflexivity|]. split; [reflexivity|exact J].
          + eapply seg_frame; [|exact SV]. intros w J. apply (r_closed _ _ _ _ R2); [easy|].
            now apply (seg_closed _ _ _ _ _ SV).
        - assert (ZE : In (block_sentinel (fn_block f)) (env_vertices (f :: outer))).
          { unfold env_vertices. simpl. right. apply in_app_iff. left. apply in_app_iff. right.
            unfold block_vertices, block_vertices_. right. apply in_app_iff. right. now left. }
          assert (IE : In (fn_id f) (env_vertices (f :: outer))) by now left.
          split; [|split].
          + intros w J. apply in_app_iff in J as [J|J].
            * destruct (B2 w J) as [->|[[<-|[]]|J']]; [now left|right; right; now apply BE|right; now right].
            * right. right. apply BE. now apply BV.
          + right. right. now apply BE.
          + left. apply in_app_iff. left. destruct N2 as [|N2]; [easy|].
            exfalso. subst i. apply (fresh_disjoint _ _ _ F (fn_id f)).
            * apply in_app_iff. right. now left.
            * now apply BE. }
      rewrite <- (app_nil_r (_ ++ [i])) in F. rewrite <- (app_nil_r (_ ++ [i])).
      eapply leads_equiv.
      2:{ eapply (leads_app _ s1 _ env _ [] v) with (W := fun w => w = fn_id f \/ w = block_sentinel (fn_block f));
            [exact L|exact F|exact H1| |].
          - eapply reach_trans.
            + eapply reach_weaken; [| |exact R2]; [easy|]. intros w ->. now left.
            + apply reach_with_last. now right.
          - intros z LZ. rewrite L1 in LZ. injection LZ as <-. exact L2. }
      intros u. split.
      * intros (u1 & u2 & -> & (w & -> & H3) & (w' & -> & (b & -> & H4))).
        rewrite <- app_assoc. eapply run_call; eauto.
      * intros Q. inversion Q as [|? ? ? ? ? Q1 Q2|? ? ? ? u0 f0 outer0 b Q1 Q2 Q3| | |]; [congruence|].
        rewrite LK in Q1. injection Q1 as <- <-.
        exists (u0 ++ [i]), (fn_id f :: fn_args f ++ b). rewrite <- app_assoc. split; [easy|].
        split; [eauto|]. exists (fn_args f ++ b). split; [easy|]. now exists b.
    + injection E as <-. eapply leads_equiv; [|exact H1]. intros u. simpl. split.
      * intros (w & -> & J). now constructor.
      * inversion 1; subst; [eauto|congruence].
  - unthen. simpl in *.
    pose proof (exprs_leads _ H _ _ _ _ E0 L R K (fresh_app_l _ _ _ _ F)) as H0.
    eapply leads_equiv; [|eapply leads_then; eauto]. intros u. simpl. split.
    + intros (w & -> & J). now constructor.
    + inversion 1; subst; eauto.
  - unthen. simpl in F. simpl expr_vertices. rewrite app_assoc in F |- *.
    pose proof (fresh_app_l _ _ _ _ F) as F'.
    pose proof (IHe1 _ _ _ _ E0 L R K (fresh_app_l _ _ _ _ F')) as H0.
    pose proof (expr_reach _ _ _ _ E0 R) as (R0 & F0 & I0).
    assert (Rel1 : rel (functions s0) env) by now rewrite F0.
    assert (K1 : linked (graph s0) env).
    { eapply linked_after; [exact K|exact R0|]. apply fresh_disjoint with (s := s). now apply fresh_app_l in F'. }
    assert (Fr1 : fresh s0 env (expr_vertices e2)) by (eapply fresh_after; eauto).
    eapply leads_equiv.
    2:{ eapply leads_then; [exact L|exact F| |exact E].
        eapply (leads_app s s0 s1); [exact L|exact F'|exact H0| |].
        - exact (proj1 (expr_reach _ _ _ _ E1 Rel1)).
        - intros z LZ. apply (IHe2 s0 s1 env z); auto. }
    intros u. split.
    + intros (w & -> & (u1 & u2 & -> & H1 & H2)). rewrite <- app_assoc. now constructor.
    + inversion 1; subst. exists (u0 ++ v0). rewrite <- app_assoc. split; [easy|]. now exists u0, v0.
  - unthen. simpl in F. simpl expr_vertices.
    pose proof (IHe _ _ _ _ E0 L R K (fresh_app_l _ _ _ _ F)) as H0.
    eapply leads_equiv; [|eapply leads_then; eauto]. intros u. simpl. split.
    + intros (w & -> & J). now constructor.
    + inversion 1; subst; eauto.
Qed.

(** ** Statements *)

Lemma rel_push t env : rel t env -> rel (push_scope t) env.
Proof.
  intros R n. rewrite <- R, !value_lookup. unfold push_scope. now rewrite rev_app_distr.
Qed.

Lemma rel_add t env n i a b t' : rel t env -> add_value t n (i, block_sentinel b) = Some t' ->
  rel t' ({| fn_name := n; fn_id := i; fn_args := a; fn_block := b |} :: env).
Proof.
  intros R E n'. rewrite (add_value_value _ _ _ _ n' E). simpl. destruct (String.eqb n n'); [easy|apply R].
Qed.

Lemma rel_own t env L : rel t env -> tabs (own L env) t.
Proof. intros R n d k V. destruct (rel_tabs _ _ R n d k V). split; now right. Qed.

Lemma reach_source X W s s' v : reach X W s s' -> ~ allowed W s v ->
  successors (graph s') v = successors (graph s) v.
Proof.
  intros [(d & E & N) _ _] A. rewrite E, successors_app, (successors_none d), app_nil_r; [easy|].
  intros w I. now destruct (N v w I).
Qed.

Definition stmt_ok (x : tstmt) : Prop := forall s s' env l,
  (skip = true -> has_else x = true) ->
  (forall k r, inside s = k :: r -> ~ In k (other_part x)) ->
  visit_stmt Others x s = Some s' -> last_vertex s = Some l -> rel (functions s) env ->
  linked (graph s) env -> fresh s env (other_part x) ->
  leads s' env (other_part x) l (fun u => run_stmt skip env x u (is_return x)) /\
  forall u, ~ run_stmt skip env x u (negb (is_return x)).

Definition def_ok (x : tstmt) : Prop :=
  match x with
  | Definition_ i n a b => forall s s' env, (skip = true -> has_else x = true) ->
      visit_stmt Definitions x s = Some s' -> rel (functions s) env -> linked (graph s) env ->
      fresh s env (stmt_vertices x) ->
      rel (functions s') ({| fn_name := n; fn_id := i; fn_args := a; fn_block := b |} :: env) /\
      linked (graph s') ({| fn_name := n; fn_id := i; fn_args := a; fn_block := b |} :: env)
  | _ => True
  end.

Lemma parts_cons i n a b l : flat_map definition_part (Definition_ i n a b :: l) =
  stmt_vertices (Definition_ i n a b) ++ flat_map definition_part l.
Proof. reflexivity. Qed.
Lemma env_cons i n a b env :
  env_vertices ({| fn_name := n; fn_id := i; fn_args := a; fn_block := b |} :: env) =
  stmt_vertices (Definition_ i n a b) ++ env_vertices env.
Proof. reflexivity. Qed.

Lemma known_vertices l : forall env v,
  In v (env_vertices (known l env)) <-> In v (flat_map definition_part l) \/ In v (env_vertices env).
Proof.
  induction l as [|x l IH]; intros env v; [simpl; tauto|].
  destruct x as [| | | | |i n a b]; try (simpl flat_map; simpl known; rewrite IH; tauto).
  rewrite parts_cons. simpl known. rewrite IH, env_cons, !in_app_iff. tauto.
Qed.

Lemma definitions_ok l : Forall def_ok l -> forall s s' env,
  (skip = true -> forallb has_else l = true) ->
  visits (visit_stmt Definitions) l s = Some s' -> rel (functions s) env -> linked (graph s) env ->
  fresh s env (flat_map definition_part l) ->
  rel (functions s') (known l env) /\ linked (graph s') (known l env).
Proof.
  induction 1 as [|x l HX HL IH]; intros s s' env HE E R K F; simpl in E.
  - injection E as <-. easy.
  - destruct (visit_stmt Definitions x s) as [s1|] eqn:E1; [|discriminate].
    assert (HE' : skip = true -> forallb has_else l = true).
    { intros Q. apply HE in Q. simpl in Q. now apply andb_true_iff in Q. }
    assert (HEx : skip = true -> has_else x = true).
    { intros Q. apply HE in Q. simpl in Q. now apply andb_true_iff in Q. }
    destruct x as [| | | | |i n a b];
      try (simpl in E1; injection E1 as <-; exact (IH s s' env HE' E R K F)); [discriminate E1|].
    rewrite parts_cons in F. simpl known.
    destruct (HX s s1 env) as (R1 & K1); auto; [now apply fresh_app_l in F|].
    apply (IH s1 s'); auto.
    assert (KX : kept Definitions (fun v => In v (stmt_vertices (Definition_ i n a b)))
              (own (stmt_vertices (Definition_ i n a b)) env) s s1).
    { apply visit_stmt_keeps with (x := Definition_ i n a b); auto; [now left|now apply rel_own|discriminate]. }
    destruct KX as (RX & _). pose proof (fresh_after _ _ _ _ _ _ F RX) as (N1 & U1). split; [easy|].
    intros v I. destruct (U1 v I) as (U2 & U3). split; [|easy].
    rewrite env_cons, in_app_iff. intros [J|J]; [|easy].
    destruct F as (NF & _). eapply NoDup_disjoint; eauto.
Qed.

(** The statements of a scope, up to the first return statement. *)
Lemma statements_ok k l : Forall stmt_ok l -> forall s s' env v,
  (skip = true -> forallb has_else l = true) ->
  (forall K r, inside s = K :: r -> ~ In K (flat_map other_part l)) ->
  visit_statements visit_stmt k l s = Some s' -> last_vertex s = Some v ->
  rel (functions s) env -> linked (graph s) env -> fresh s env (flat_map other_part l) ->
  ~ In k (flat_map other_part l) -> ~ In k (env_vertices env) -> v <> k ->
  (forall a b, In (a, b) (graph s) -> b <> k) ->
  (leads s' env (flat_map other_part l) v (fun u => run_stmts skip env l u false) /\
   forall u, ~ run_stmts skip env l u true) \/
  ((exists r, inside s = k :: r) /\
   (exists z, leadz (graph s') env (flat_map other_part l) v z (fun u => run_stmts skip env l u true) /\
              successors (graph s') z = [k]) /\
   forall u, ~ run_stmts skip env l u false).
Proof.
  induction 1 as [|x l HX HL IH]; intros s s' env v HE HK E L R K F NK NE VK GK; simpl in E.
  - injection E as <-. left. split; [|now inversion 1].
    eapply leads_equiv; [|now apply leads_nil]. intros u. simpl. split.
    + intros ->. constructor. + now inversion 1.
  - destruct (visit_stmt Others x s) as [s1|] eqn:E1; [|discriminate].
    assert (HE' : skip = true -> forallb has_else l = true).
    { intros Q. apply HE in Q. simpl in Q. now apply andb_true_iff in Q. }
    assert (HEx : skip = true -> has_else x = true).
    { intros Q. apply HE in Q. simpl in Q. now apply andb_true_iff in Q. }
    simpl flat_map in *. pose proof (fresh_app_l _ _ _ _ F) as FX.
    assert (HKx : forall K r, inside s = K :: r -> ~ In K (other_part x)).
    { intros K' r I J. apply (HK K' r I). apply in_app_iff. now left. }
    destruct (HX s s1 env v HEx HKx E1 L R K FX) as (D1 & N1).
    destruct D1 as (z & LZ & D1). rewrite LZ in E.
    destruct (is_return x) eqn:IR.
    + (* a return statement: the rest is not reached *)
      right. destruct x as [| |i e| | |]; try discriminate IR.
      pose proof (return_last _ _ _ _ E1) as (L1 & k1 & r & I & S1).
      rewrite LZ in L1. injection L1 as ->. rewrite S1 in E.
      destruct (Nat.eqb_spec k1 k) as [EK|]; [|discriminate]. subst k1.
      split; [now exists r|].
      assert (KD : kept Others (fun v => In v (flat_map other_part l))
                (fun v => In v (flat_map other_part l) \/ v = k \/ In v (env_vertices env)) (with_last None s1) s').
      { apply (visit_statements_kept _ _ k l); auto.
        - apply Forall_forall. intros. apply visit_stmt_keeps.
        - simpl. assert (FS : functions s1 = functions s).
          { apply (visit_stmt_keeps (Return i e) (fun _ => True) (fun _ => True) Others s s1); easy. }
          rewrite FS. intros n d q V. destruct (rel_tabs _ _ R n d q V). split; now right; right. }
      destruct KD as (RD & _).
      assert (CL : forall w, ~ In w (flat_map other_part l) -> successors (graph s1) w <> [] ->
                successors (graph s') w = successors (graph s1) w).
      { intros w NI C. now apply (r_closed _ _ _ _ RD). }
      split.
      * exists i. split.
        -- eapply leadz_more; [intros w; apply own_l|]. eapply leadz_equiv.
           2:{ eapply leadz_frame; [exact D1|]. intros w C D. apply CL; [|easy]. intros J.
               destruct D as [->|[D|D]].
               - apply fresh_app_r in F as (_ & U). now destruct (U v J) as (_ & U2 & _).
               - destruct F as (N & _). eapply NoDup_disjoint; eauto.
               - apply fresh_app_r in F as (_ & U). now destruct (U w J) as (U1 & _). }
           intros u. split; [now constructor|]. inversion 1; subst; [easy|]. exfalso. eapply N1; eauto.
        -- rewrite CL, S1; [easy| |now rewrite S1]. intros J. destruct F as (N & _).
           eapply NoDup_disjoint; [exact N| |exact J].
           simpl. destruct e; [apply in_app_iff; right|]; now left.
      * intros u. inversion 1; subst. eapply N1; eauto.
    + simpl in N1.
      assert (KX : kept Others (fun v => In v (other_part x)) (own (other_part x) env) s s1).
      { apply (keeps_other x); auto; [apply visit_stmt_keeps|now left|now apply rel_own|congruence]. }
      destruct KX as (R1 & I1 & _ & _ & F1). specialize (F1 eq_refl).
      assert (AK : ~ allowed (own (other_part x) env) s k).
      { intros [[J|J]|J]; [|easy|congruence]. apply NK, in_app_iff. now left. }
      assert (GK1 : forall a b, In (a, b) (graph s1) -> b <> k).
      { intros a b J ->. destruct R1 as [(d & Q & N) _ _]. rewrite Q in J. apply in_app_iff in J as [J|J].
        - now apply (GK a k J). - now destruct (N a k J). }
      assert (E' : visit_statements visit_stmt k l s1 = Some s').
      { destruct (successors (graph s1) z) as [|w r] eqn:SZ; [easy|].
        destruct (Nat.eqb_spec w k) as [->|]; [|discriminate]. exfalso.
        apply (GK1 z k); [|easy]. apply in_successors. rewrite SZ. now left. }
      clear E. rename E' into E.
      assert (Rel1 : rel (functions s1) env) by now rewrite F1.
      assert (K1 : linked (graph s1) env).
      { eapply linked_after; [exact K|exact R1|]. now apply fresh_disjoint with (s := s). }
      pose proof (fresh_after _ _ _ _ _ _ F R1) as Fr1.
      assert (zk : z <> k).
      { intros ->. apply AK. destruct R1 as [_ _ LL]. now apply LL. }
      assert (RB : kept Others (fun v => In v (flat_map other_part l))
                (fun v => In v (flat_map other_part l) \/ v = k \/ In v (env_vertices env)) s1 s').
      { apply (visit_statements_kept _ _ k l); auto.
        - apply Forall_forall. intros. apply visit_stmt_keeps.
        - intros n d q V. destruct (rel_tabs _ _ Rel1 n d q V). split; now right; right. }
      destruct RB as (RB & _).
      destruct (IH s1 s' env z) as [(D2 & N2)|(I2 & (y & D2 & S2) & N2)]; auto.
      * rewrite I1. intros K' r I J. apply (HK K' r I). apply in_app_iff. now right.
      * intros J. apply NK, in_app_iff. now right.
      * left. split.
        -- destruct D2 as (z2 & LZ2 & D2). exists z2. split; [easy|]. eapply leadz_equiv.
           2:{ eapply leadz_app; [exact L|exact F|exact D1| |exact D2].
               intros w NI C. now apply (r_closed _ _ _ _ RB). }
           intros u. split.
           ++ intros (u1 & u2 & -> & H1 & H2). now constructor.
           ++ inversion 1; subst. now exists u0, v0.
        -- intros u. inversion 1; subst; [now apply (N1 u)|]. eapply N2; eauto.
      * right. split; [now rewrite <- I1|]. split.
        -- exists y. split; [|easy]. eapply leadz_equiv.
           2:{ eapply leadz_app; [exact L|exact F|exact D1| |exact D2].
               intros w NI C. now apply (r_closed _ _ _ _ RB). }
           intros u. split.
           ++ intros (u1 & u2 & -> & H1 & H2). now apply run_some.
           ++ inversion 1; subst; [exfalso; eapply N1; eassumption|]. now exists u0, v0.
        -- intros u. inversion 1; subst. eapply N2; eauto.
Qed.

Lemma parts_permutation l : Permutation (flat_map stmt_vertices l) (flat_map definition_part l ++ flat_map other_part l).
Proof.
  induction l as [|x l IH]; [constructor|]. simpl.
  assert (P := Permutation_app_head (stmt_vertices x) IH).
  destruct x as [| | | | |i n a b];
    try (etransitivity; [exact P|]; simpl app at 4; apply Permutation_app_swap_app).
  simpl other_part. simpl definition_part. rewrite <- app_assoc. exact P.
Qed.

Lemma fresh_permutation s env L L' : Permutation L L' -> fresh s env L -> fresh s env L'.
Proof.
  intros P (N & U). split; [eapply Permutation_NoDup; eauto|]. intros v I. apply U.
  eapply Permutation_in; [symmetry; exact P|easy].
Qed.

Lemma scope_ok i k l s s' env v : Forall stmt_ok l -> Forall def_ok l ->
  (skip = true -> forallb has_else l = true) ->
  (forall K r, inside s = K :: r -> ~ In K (flat_map stmt_vertices l)) ->
  visit_scope visit_stmt (Block i k l) s = Some s' -> last_vertex s = Some v -> ~ In v (env_vertices env) ->
  rel (functions s) env -> linked (graph s) env -> fresh s env (block_vertices (Block i k l)) ->
  successors (graph s') v = successors (graph s) v ++ [i] /\
  (exists V, seg (graph s') V i k (fun u => run_block skip env (Block i k l) (i :: u) true) /\ In i V /\
     forall w, In w V -> own (block_vertices (Block i k l)) env w) /\
  ((forall u, ~ run_stmts skip (known l env) l u true) \/ exists r, inside s = k :: r).
Proof.
  intros HS HD HE HK E L NV R K F. unfold visit_scope in E. rewrite L in E. unthen.
  set (s0' := with_last _ (with_functions _ s)) in E0.
  set (D := flat_map definition_part l) in *. set (O := flat_map other_part l) in *.
  assert (FP : fresh s env (i :: D ++ O ++ [k])).
  { eapply fresh_permutation; [|exact F]. unfold block_vertices, block_vertices_. simpl.
    constructor. rewrite app_assoc. apply Permutation_app_tail. apply parts_permutation. }
  assert (NDP : NoDup (i :: D ++ O ++ [k])) by apply FP.
  assert (iN : ~ In i (D ++ O ++ [k])) by now inversion NDP.
  assert (F0 : fresh s0' env (D ++ O ++ [k])).
  { apply (fresh_same (with_last (Some i) s)); try easy. apply fresh_last; [|easy].
    apply (fresh_app_r _ _ [i]) in FP. exact FP. }
  assert (R0 : rel (functions s0') env) by (unfold s0'; simpl; now apply rel_push).
  (* the definitions *)
  destruct (definitions_ok l HD s0' s0 env) as (R1 & K1); auto; [now apply fresh_app_l in F0|].
  assert (KD : kept Definitions (fun v => In v D) (own D env) s0' s0).
  { apply (visit_definitions_kept _ _ l); auto; [|now left|now apply rel_own].
    apply Forall_forall. intros. apply visit_stmt_keeps. }
  destruct KD as (RD & ID & _ & OD & _).
  destruct (OD (functions s) []) as (sc & FS0); [reflexivity|].
  pose proof (fresh_after _ _ _ _ _ _ F0 RD) as FO.
  assert (ne_v : forall w, In w (block_vertices (Block i k l)) -> w <> v).
  { intros w I ->. destruct F as (_ & U). now destruct (U v I) as (_ & U2 & _). }
  assert (vi : i <> v) by (apply ne_v; now left).
  assert (vAD : ~ allowed (own D env) s0' v).
  { intros [[J|J]|J]; [|easy|].
    - apply (ne_v v); [|easy]. right. apply in_app_iff. left. now apply definition_part_in.
    - simpl in J. congruence. }
  assert (SV0 : successors (graph s0) v = successors (graph s) v) by (rewrite (reach_source _ _ _ _ _ RD vAD); easy).
  (* the statements *)
  set (s0'' := with_last (Some i) _) in E1. set (env' := known l env).
  assert (EV : forall w, In w (env_vertices env') <-> In w D \/ In w (env_vertices env)) by (intros; apply known_vertices).
  assert (iE : ~ In i (env_vertices env)).
  { apply (fresh_disjoint _ _ _ F). now left. }
  assert (NDk : NoDup (D ++ O ++ [k])) by now inversion NDP.
  assert (kD : ~ In k D).
  { intros J. eapply (NoDup_disjoint D); [exact NDk|exact J|]. apply in_app_iff. right. now left. }
  assert (kO : ~ In k O).
  { intros J. apply NoDup_right in NDk. eapply (NoDup_disjoint O); [exact NDk|exact J|]. now left. }
  assert (kE : ~ In k (env_vertices env)).
  { apply (fresh_disjoint _ _ _ F). right. apply in_app_iff. right. now left. }
  assert (ik : i <> k) by (intros ->; apply iN; rewrite !in_app_iff; right; right; now left).
  assert (FO' : fresh s0'' env' (O ++ [k])).
  { split; [apply FO|]. intros w J. destruct FO as (_ & U). destruct (U w J) as (U1 & U2 & U3).
    split; [|split].
    - rewrite EV. intros [Q|Q]; [|easy]. eapply (NoDup_disjoint D); [exact NDk|exact Q|exact J].
    - simpl. intros [= ->]. apply iN. apply in_app_iff. now right.
    - simpl. intros a b Q. apply in_app_iff in Q as [Q|[[= <- <-]|[]]]; [now apply U3|].
      split; intros ->.
      + apply (ne_v w); [|easy]. right. simpl. rewrite in_app_iff.
        apply in_app_iff in J as [J|J]; [left; now apply other_part_in|now right].
      + apply iN. apply in_app_iff. now right. }
  assert (XA : forall w, ~ In w (O ++ [k]) -> w <> i -> successors (graph s0'') w = successors (graph s0) w \/ w = v).
  { intros w _ _. simpl. unfold add_successor. rewrite successors_app, successors_one.
    destruct (Nat.eqb_spec v w) as [->|]; [now right|left; apply app_nil_r]. }
  assert (SV1 : successors (graph s0'') v = successors (graph s) v ++ [i]).
  { simpl. unfold add_successor. rewrite successors_app, successors_one, Nat.eqb_refl, SV0. easy. }
  assert (K1' : linked (graph s0'') env').
  { intros pre f outer Q. destruct (K1 pre f outer Q) as (V & S & IV & B). exists V. split; [|easy].
    eapply seg_frame; [|exact S]. intros w J. simpl. unfold add_successor.
    rewrite successors_app, successors_one. destruct (Nat.eqb_spec v w) as [->|]; [|apply app_nil_r].
    exfalso. apply B in J. assert (J' : In w (env_vertices env')) by (rewrite Q; now apply env_vertices_app).
    apply EV in J' as [J'|J']; [|easy]. apply (ne_v w); [|easy]. right. apply in_app_iff. left.
    now apply definition_part_in. }
  assert (HK' : forall K r, inside s0'' = K :: r -> ~ In K O).
  { simpl. rewrite ID. intros K' r I J. apply (HK K' r I). now apply other_part_in. }
  assert (GK : forall a b, In (a, b) (graph s0'') -> b <> k).
  { intros a b Q. destruct FO' as (_ & U). destruct (U k) as (_ & _ & U3); [apply in_app_iff; right; now left|].
    now apply (U3 a b). }
  assert (ST : kept Others (fun w => In w O) (fun w => In w O \/ w = k \/ In w (env_vertices env')) s0'' s1).
  { apply (visit_statements_kept _ _ k l); auto.
    - apply Forall_forall. intros. apply visit_stmt_keeps.
    - intros n d q V. destruct (rel_tabs _ _ R1 n d q V). split; now right; right. }
  destruct ST as (RS & IS & _ & _ & FS). specialize (FS eq_refl).
  assert (FN : finish k l s1 = Some s2) by exact E2.
  apply (finish_fine (fun _ => False) (fun w => w = k)) in FN as ((RF & FF & IF) & L2); [|easy].
  assert (G' : graph s' = graph s2).
  { destruct (pop_scope (functions s2)); [|discriminate]. injection E as <-. easy. }
  rewrite G'. clear E G'.
  assert (CF : forall w, successors (graph s1) w <> [] -> successors (graph s2) w = successors (graph s1) w).
  { intros w C. now apply (r_closed _ _ _ _ RF). }
  assert (vO : ~ In v O).
  { intros J. apply (ne_v v); [|easy]. right. apply in_app_iff. left. now apply other_part_in. }
  split.
  { rewrite CF; rewrite (r_closed _ _ _ _ RS); auto; rewrite SV1; now destruct (successors (graph s) v). }
  assert (OW : forall w, own O env' w -> own (block_vertices (Block i k l)) env w).
  { intros w [J|J]; [left; right; apply in_app_iff; left; now apply other_part_in|].
    apply EV in J as [J|J]; [left; right; apply in_app_iff; left; now apply definition_part_in|now right]. }
  assert (HR : exists z r, leadz (graph s2) env' O i z (fun u => run_stmts skip env' l u r) /\
            successors (graph s2) z = [k] /\ (forall u, ~ run_stmts skip env' l u (negb r)) /\
            (r = true -> exists q, inside s = k :: q)).
  { destruct (statements_ok k l HS s0'' s1 env' i) as [(Dl & N1)|(I1 & (z & Dl & S1) & N1)]; auto.
    - now apply fresh_app_l in FO'.
    - rewrite EV. tauto.
    - destruct Dl as (z & LZ & Dl). exists z, false. split; [|split; [|split; [easy|discriminate]]].
      + eapply leadz_frame; [exact Dl|]. intros w C _. now apply CF.
      + unfold finish in E2. rewrite LZ in E2. unfold visit_sentinel in E2. unthen. injection E2 as <-.
        apply link_last_some in E as (z' & LZ' & SZ & ->). rewrite LZ in LZ'. injection LZ' as <-. simpl.
        now rewrite successors_app, SZ, successors_one, Nat.eqb_refl.
    - exists z, true. split; [|split; [|split; [easy|]]].
      + eapply leadz_frame; [exact Dl|]. intros w C _. now apply CF.
      + rewrite CF; [easy|]. now rewrite S1.
      + intros _. destruct I1 as (r & I1). exists r. simpl in I1. now rewrite ID in I1. }
  destruct HR as (z & r & Dl & SZ & NR & IR). split.
  - pose proof (leadz_join _ _ _ _ _ _ _ _ _ Dl (leadz_edge _ env' _ _ SZ)) as (V & SG & B & Z & N).
    exists V. split; [|split].
    + eapply seg_equiv; [|exact SG]. intros u. split.
      * intros (u1 & u2 & -> & H1 & ->). destruct r; [now apply run_to_return|now apply run_to_end].
      * intros Q. inversion Q as [? ? ? ? u0 ? Q1|? ? ? ? u0 Q1]; fold env' in Q1;
          exists u0, [k]; (split; [easy|]); split; auto;
          destruct r; auto; exfalso; eapply NR; exact Q1.
    + destruct N as [|N]; [easy|congruence].
    + intros w J. destruct (B w J) as [->|[Q|Q]].
      * left. now left.
      * apply in_app_iff in Q as [Q|[<-|[]]]; [apply OW; now left|].
        left. right. apply in_app_iff. right. now left.
      * apply OW. now right.
  - destruct r; [right; auto|left; exact NR].
Qed.

Lemma args_ok a : forall s s' env v, visits thread_to a s = Some s' -> last_vertex s = Some v ->
  successors (graph s) v = [] -> fresh s env a ->
  exists w, last_vertex s' = Some w /\ successors (graph s') w = [] /\
    leadz (graph s') env a v w (fun u => u = a).
Proof.
  induction a as [|x a IH]; intros s s' env v E L S F; simpl in E.
  - injection E as <-. exists v. split; [easy|]. split; [easy|]. exists []. split; [apply seg_nil|].
    split; [easy|]. auto.
  - destruct (thread_to x s) as [s1|] eqn:E1; [|discriminate].
    pose proof (leads_thread _ _ _ env _ L E1) as (z & LZ & D1).
    assert (R1 : reach (fun v => In v [x]) (own [x] env) s s1) by (eapply reach_thread; [|exact E1]; left; now left).
    pose proof (fresh_after _ _ _ _ [x] a F R1) as F1.
    assert (z = x) as ->.
    { apply thread_to_some in E1 as [(_ & ->)|(? & _ & _ & ->)]; simpl in LZ; now injection LZ as <-. }
    assert (SX : successors (graph s1) x = []).
    { apply thread_to_some in E1 as [(_ & ->)|(l & LL & _ & ->)]; simpl.
      - apply (fresh_none _ _ _ _ F). now left.
      - rewrite successors_app, (fresh_none _ _ _ x F) by (now left). rewrite successors_one.
        destruct (Nat.eqb_spec l x) as [->|]; [|easy]. destruct F as (_ & U).
        destruct (U x) as (_ & U2 & _); [now left|congruence]. }
    destruct (IH s1 s' env x E LZ SX F1) as (w & LW & SW & D2). exists w. split; [easy|]. split; [easy|].
    change (x :: a) with ([x] ++ a) in *. eapply leadz_equiv.
    2:{ eapply leadz_app; [exact L|exact F|exact D1| |exact D2].
        intros q NI C. apply (visits_thread_fine (fun v => In v a) (fun v => In v a)) in E; [|easy].
        now apply (r_closed _ _ _ _ (proj1 E)). }
    intros u. split.
    + intros (u1 & u2 & -> & -> & ->). easy.
    + intros ->. now exists [x], a.
Qed.

Lemma run_block_entry env i k l u r : run_block skip env (Block i k l) u r -> exists w, u = i :: w.
Proof. inversion 1; eauto. Qed.

Lemma definition_ok i n a b : Forall (fun x => stmt_ok x /\ def_ok x) (block_statements b) ->
  def_ok (Definition_ i n a b).
Proof.
  intros HB s s' env HE E R K F.
  assert (K' : linked (graph s') env).
  { assert (KX : kept Definitions (fun v => In v (stmt_vertices (Definition_ i n a b)))
              (own (stmt_vertices (Definition_ i n a b)) env) s s').
    { apply visit_stmt_keeps with (x := Definition_ i n a b); auto; [now left|now apply rel_own|discriminate]. }
    destruct KX as (RX & _). eapply linked_after; [exact K|exact RX|]. now apply fresh_disjoint with (s := s). }
  rewrite definition_vertices in F. simpl in E. unthen. apply at_vertex_some in E2 as (-> & L2).
  destruct (add_value (functions s1) n (i, block_sentinel b)) as [t|] eqn:EA; [|discriminate].
  destruct (match last_vertex s with Some v => v =? block_sentinel b | None => false end); [discriminate|].
  destruct (has_successor (graph s1) (block_sentinel b)); [discriminate|]. injection E as <-.
  set (sa := with_last _ (with_inside _ s)) in E0. simpl graph in *. simpl functions.
  assert (NDF : NoDup (i :: a ++ block_vertices b)) by apply F.
  assert (iN : ~ In i (a ++ block_vertices b)) by now inversion NDF.
  assert (iE : ~ In i (env_vertices env)) by (apply (fresh_disjoint _ _ _ F); now left).
  assert (Fa : fresh sa env (a ++ block_vertices b)).
  { apply (fresh_same (with_last (Some i) s)); try easy. apply fresh_last; [|easy].
    apply (fresh_app_r _ _ [i]) in F. exact F. }
  assert (Si : successors (graph sa) i = []) by (apply (fresh_none _ _ _ _ F); now left).
  destruct (args_ok a sa s0 env i E0 eq_refl Si (fresh_app_l _ _ _ _ Fa)) as (w & LW & SW & DA).
  destruct (visits_thread_last _ _ _ i E0 eq_refl) as (w' & LW' & WI). rewrite LW in LW'. injection LW' as <-.
  pose proof (visits_thread_fine (fun v => In v a) (own a env) a (fun v I => or_introl I) _ _ E0) as (RA & FA & IA).
  pose proof (fresh_after _ _ _ _ _ _ Fa RA) as FB.
  assert (Rel0 : rel (functions s0) env) by (rewrite FA; exact R).
  assert (K0 : linked (graph s0) env).
  { eapply linked_after; [|exact RA|]; [exact K|]. apply fresh_disjoint with (s := sa). now apply fresh_app_l in Fa. }
  assert (wE : ~ In w (env_vertices env)).
  { destruct WI as [->|WI]; [easy|]. apply (fresh_disjoint _ _ _ F). right. apply in_app_iff. now left. }
  assert (RS : fine (fun v => In v (block_vertices b) \/ v = w) (fun v => own (block_vertices b) env v \/ v = w) s0 s1).
  { refine (proj1 (visit_scope_kept _ _ b s0 s1 w _ _ _ _ LW _ E1)); auto.
    - apply Forall_forall. intros. apply visit_stmt_keeps.
    - intros v [I| ->]; [left; now left|now right].
    - intros m d q V. destruct (rel_tabs _ _ Rel0 m d q V). split; left; now right. }
  destruct RS as (RS & FS & IS).
  assert (FT : functions s1 = functions s) by (rewrite FS, FA; easy).
  destruct b as [bi bk l]. simpl block_sentinel in *. simpl block_statements in *.
  destruct (scope_ok bi bk l s0 s1 env w) as (SV & (V & SG & IV & BV) & _); auto.
  - eapply Forall_impl; [|exact HB]. now intros x (Q & _).
  - eapply Forall_impl; [|exact HB]. now intros x (_ & Q).
  - rewrite IA. simpl. intros q r [= <- <-] J.
    apply (fresh_app_r _ _ [i]) in F. apply fresh_app_r in F as (N & _). unfold block_vertices, block_vertices_ in N.
    simpl in N. inversion_clear N as [|? ? _ N']. eapply (NoDup_disjoint _ [bk]); [exact N'|exact J|now left].
  - split; [eapply rel_add; [|exact EA]; now rewrite FT|].
    rewrite SW in SV. simpl in SV.
    intros pre f outer Q. destruct pre as [|f' pre]; simpl in Q; [|injection Q as <- ->; now apply (K' pre)].
    injection Q as <- <-. cbn [fn_id fn_block block_sentinel].
    assert (DA' : leadz (graph s1) env a i w (fun u => u = a)).
    { eapply leadz_frame; [exact DA|]. intros v C O. apply (r_closed _ _ _ _ RS); [|easy].
      intros [J|J]; [|congruence]. destruct O as [->|[O|O]].
      - apply iN, in_app_iff. now right.
      - inversion_clear NDF as [|? ? _ NDF']. eapply (NoDup_disjoint a); [exact NDF'|exact O|exact J].
      - apply (fresh_disjoint _ _ _ F v); [|easy]. right. apply in_app_iff. now right. }
    pose proof (leadz_join _ _ _ _ _ _ _ _ _ DA' (leadz_edge _ env _ _ SV)) as (VA & SA & BA & ZA & NA).
    exists (VA ++ V). split; [|split].
    + eapply seg_equiv; [|eapply seg_app; [exact SA|exact SG|now left]]. intros u. split.
      * intros (u1 & u2 & -> & (u3 & u4 & -> & -> & ->) & H2). exists (bi :: u2). rewrite <- app_assoc. easy.
      * intros (q & -> & H2). simpl in H2. destruct (run_block_entry _ _ _ _ _ _ H2) as (q' & ->).
        exists (a ++ [bi]), q'. rewrite <- app_assoc. split; [easy|]. split; [|easy]. now exists a, [bi].
    + apply in_app_iff. destruct NA as [NA|NA]; [now left|]. right. now rewrite NA.
    + intros v I. apply in_app_iff in I. rewrite env_cons, definition_vertices.
      apply in_app_iff. destruct I as [I|I].
      * destruct (BA v I) as [->|[O|O]]; [left; now left| |now right]. left. right. apply in_app_iff in O.
        apply in_app_iff. destruct O as [O|[<-|[]]]; [now left|]. right. now left.
      * destruct (BV v I) as [O|O]; [|now right]. left. right. apply in_app_iff. now right.
Qed.

Lemma return_ok i e : stmt_ok (Return i e).
Proof.
  intros s s' env l HE HK E L R K F. simpl is_return. simpl negb. split; [|now inversion 1].
  pose proof (return_last _ _ _ _ E) as (LI & k & r & IN & SI).
  simpl in E. unthen.
  assert (C : forall v, successors (graph s1) v <> [] -> successors (graph s') v = successors (graph s1) v).
  { intros v C. destruct (inside s1) as [|k' r']; [discriminate|].
    apply (reach_link (fun _ => False) (fun v => v = k')) in E; [|easy]. now apply (r_closed _ _ _ _ E). }
  exists i. split; [easy|]. destruct e as [e|]; simpl in F |- *.
  - pose proof (visit_expr_leads e _ _ _ _ E0 L R K (fresh_app_l _ _ _ _ F)) as D0.
    pose proof (leads_then _ _ _ _ _ _ _ _ L F D0 E1) as (z & LZ & D1).
    assert (z = i) as ->.
    { apply thread_to_some in E1 as [(_ & ->)|(? & _ & _ & ->)]; simpl in LZ; now injection LZ as <-. }
    eapply leadz_frame; [|intros v Q _; now apply C]. eapply leadz_equiv; [|exact D1]. intros u. split.
    + intros (w & -> & H). now constructor. + inversion 1; subst; eauto.
  - injection E0 as <-. pose proof (leads_thread _ _ _ env _ L E1) as (z & LZ & D1).
    assert (z = i) as ->.
    { apply thread_to_some in E1 as [(_ & ->)|(? & _ & _ & ->)]; simpl in LZ; now injection LZ as <-. }
    eapply leadz_frame; [|intros v Q _; now apply C]. eapply leadz_equiv; [|exact D1]. intros u. split.
    + intros ->. constructor. + now inversion 1.
Qed.

Lemma assignment_ok i t e : stmt_ok (Assignment i t e).
Proof.
  intros s s' env l HE HK E L R K F. simpl is_return. simpl negb. split; [|now inversion 1].
  simpl in E. unthen. simpl in F. simpl other_part. rewrite app_assoc in F |- *.
  pose proof (fresh_app_l _ _ _ _ F) as F'.
  pose proof (visit_expr_leads e _ _ _ _ E0 L R K (fresh_app_l _ _ _ _ F')) as H0.
  pose proof (expr_reach _ _ _ _ E0 R) as (R0 & F0 & I0).
  assert (Rel1 : rel (functions s0) env) by now rewrite F0.
  assert (K1 : linked (graph s0) env).
  { eapply linked_after; [exact K|exact R0|]. apply fresh_disjoint with (s := s). now apply fresh_app_l in F'. }
  assert (Fr1 : fresh s0 env (expr_vertices t)) by (eapply fresh_after; eauto).
  destruct (last_vertex s1) as [l1|] eqn:L1; [|discriminate].
  eapply leads_equiv.
  2:{ eapply leads_then; [exact L|exact F| |exact E].
      eapply (leads_app s s0 s1); [exact L|exact F'|exact H0| |].
      - exact (proj1 (expr_reach _ _ _ _ E1 Rel1)).
      - intros z LZ. apply (visit_expr_leads t s0 s1 env z); auto. }
  intros u. split.
  - intros (w & -> & (u1 & u2 & -> & H1 & H2)). rewrite <- app_assoc. now constructor.
  - inversion 1; subst. exists (u0 ++ v). rewrite <- app_assoc. split; [easy|]. now exists u0, v.
Qed.

Lemma scope_closed b s s' env v : visit_scope visit_stmt b s = Some s' -> last_vertex s = Some v ->
  rel (functions s) env ->
  fine (fun w => In w (block_vertices b) \/ w = v) (fun w => own (block_vertices b) env w \/ w = v) s s' /\
  last_vertex s' = Some (block_sentinel b).
Proof.
  intros E L R. refine (visit_scope_kept _ _ b s s' v _ _ _ _ L _ E); auto.
  - apply Forall_forall. intros. apply visit_stmt_keeps.
  - intros w [I| ->]; [left; now left|now right].
  - intros m d q V. destruct (rel_tabs _ _ R m d q V). split; left; now right.
Qed.

Lemma choice_ok i k c t f :
  Forall (fun x => stmt_ok x /\ def_ok x) (block_statements t) ->
  Forall (fun x => stmt_ok x /\ def_ok x) (block_statements f) -> stmt_ok (Choice i k c t f).
Proof.
  intros HT HF s s' env l HE HK E L R K F. simpl is_return. simpl negb.
  change (other_part (Choice i k c t f)) with (stmt_vertices (Choice i k c t f)) in *.
  rewrite choice_vertices in F, HK |- *. simpl in E. unthen. apply at_vertex_some in E3 as (-> & L3).
  injection E as <-.
  set (T := block_vertices t) in *. set (Fv := block_vertices f) in *.
  change (expr_vertices c ++ i :: T ++ Fv ++ [k]) with (expr_vertices c ++ [i] ++ T ++ Fv ++ [k]) in *.
  assert (HK' : forall q r, inside s = q :: r -> ~ In q (T ++ Fv ++ [k])).
  { intros q r Q J. apply (HK q r Q). rewrite (in_app_iff (expr_vertices c)). right. now right. }
  clear HK. rename HK' into HK.
  (* the condition *)
  pose proof (visit_expr_leads c _ _ _ _ E0 L R K (fresh_app_l _ _ _ _ F)) as D0.
  pose proof (expr_reach _ _ _ _ E0 R) as (R0 & F0 & I0).
  pose proof (fresh_after _ _ _ _ _ _ F R0) as Fr0.
  set (sI := with_last (Some i) s1) in *.
  pose proof E1 as E1'. apply link_last_some in E1' as (zc & LC & SC & Q1).
  assert (ET : thread_to i s0 = Some sI) by (unfold thread_to; rewrite LC, E1; easy).
  rewrite app_assoc in F |- *.
  pose proof (leads_then _ _ _ _ _ _ _ _ L (fresh_app_l _ _ _ _ F) D0 ET) as (z & LZ & D1).
  simpl in LZ. injection LZ as <-.
  assert (iU : untouched s0 env i) by (apply Fr0; now left). destruct iU as (iE & iL & iG).
  assert (Si : successors (graph sI) i = []).
  { unfold sI. rewrite Q1. simpl. rewrite successors_app, successors_one.
    rewrite successors_none by (intros w J; now destruct (iG i w J)).
    destruct (Nat.eqb_spec zc i) as [->|]; [congruence|easy]. }
  assert (RI : reach (fun v => In v (expr_vertices c ++ [i])) (own (expr_vertices c ++ [i]) env) s sI).
  { eapply reach_trans.
    - eapply reach_weaken; [| |exact R0]; intros w J; [apply in_app_iff; now left|now apply own_l].
    - eapply reach_thread; [|exact ET]. left. apply in_app_iff. right. now left. }
  pose proof (fresh_after _ _ _ _ _ _ F RI) as FI.
  assert (FTI : functions sI = functions s) by (unfold sI; rewrite Q1; exact F0).
  assert (RelI : rel (functions sI) env) by now rewrite FTI.
  assert (KI : linked (graph sI) env).
  { eapply linked_after; [exact K|exact RI|]. apply fresh_disjoint with (s := s). now apply fresh_app_l in F. }
  assert (INI : inside sI = inside s) by (unfold sI; rewrite Q1; exact I0).
  assert (iN : ~ In i (T ++ Fv ++ [k])).
  { intros J. destruct FI as (_ & U). destruct (U i J) as (_ & U2 & _). now apply U2. }
  assert (HEt : skip = true -> forallb has_else (block_statements t) = true).
  { intros Q. apply HE in Q. simpl in Q. now repeat (apply andb_true_iff in Q as (Q & ?)). }
  assert (HEf : skip = true -> forallb has_else (block_statements f) = true).
  { intros Q. apply HE in Q. simpl in Q. now repeat (apply andb_true_iff in Q as (Q & ?)). }
  assert (HEn : skip = true -> block_statements f <> []).
  { intros Q. apply HE in Q. simpl in Q. repeat (apply andb_true_iff in Q as (Q & ?)).
    now destruct (block_statements f). }
  (* the true scope *)
  destruct (scope_closed t sI s2 env i E2 eq_refl RelI) as ((R2 & F2 & I2) & _).
  assert (NDI : NoDup (T ++ Fv ++ [k])) by apply FI.
  assert (SCt : successors (graph s2) i = [block_id t] /\
     (exists V, seg (graph s2) V (block_id t) (block_sentinel t)
        (fun u => run_block skip env t (block_id t :: u) true) /\ In (block_id t) V /\
        forall w, In w V -> own T env w) /\
     (forall u, ~ run_stmts skip (known (block_statements t) env) (block_statements t) u true)).
  { destruct t as [ti tk tl]. simpl block_statements in *.
    destruct (scope_ok ti tk tl sI s2 env i) as (S2 & V2 & N2); auto.
    - eapply Forall_impl; [|exact HT]. now intros x (Q & _).
    - eapply Forall_impl; [|exact HT]. now intros x (_ & Q).
    - rewrite INI. intros q r Q J. apply (HK q r Q). apply in_app_iff. left.
      unfold T, block_vertices, block_vertices_. right. apply in_app_iff. now left.
    - now apply fresh_app_l in FI.
    - split; [now rewrite S2, Si|]. split; [easy|]. destruct N2 as [N2|(r & N2)]; [easy|].
      exfalso. rewrite INI in N2. apply (HK _ _ N2). apply in_app_iff. left.
      unfold T, block_vertices, block_vertices_. right. apply in_app_iff. right. now left. }
  destruct SCt as (S2 & (Vt & SGt & IVt & BVt) & NRt).
  set (ti := block_id t) in *. set (tk := block_sentinel t) in *.
  assert (tkT : In tk T).
  { unfold T, block_vertices, block_vertices_. right. apply in_app_iff. right. now left. }
  assert (tiT : In ti T) by (unfold T, block_vertices, block_vertices_; now left).
  pose proof E4 as E4'. apply link_last_some in E4' as (q & L4 & S4 & Q4).
  assert (q = tk) as -> by congruence.
  assert (C4 : forall v, successors (graph s2) v <> [] -> successors (graph s4) v = successors (graph s2) v).
  { intros v C. apply (reach_link (fun _ => False) (fun v => v = k)) in E4; [|easy].
    now apply (r_closed _ _ _ _ E4). }
  assert (Stk : successors (graph s4) tk = [k]).
  { rewrite Q4. simpl. now rewrite successors_app, S4, successors_one, Nat.eqb_refl. }
  assert (Si4 : successors (graph s4) i = [ti]) by (rewrite C4; [easy|now rewrite S2]).
  assert (SGt4 : seg (graph s4) Vt ti tk (fun u => run_block skip env t (ti :: u) true)).
  { eapply seg_frame; [|exact SGt]. intros v I. apply C4. now apply (seg_closed _ _ _ _ _ SGt). }
  (* the false scope *)
  assert (HFf : exists g, graph s5 = g /\
    (forall v, ~ In v Fv -> v <> i -> successors (graph s4) v <> [] -> successors g v = successors (graph s4) v) /\
    ((block_statements f = [] /\ successors g i = [ti]) \/
     (block_statements f <> [] /\ successors g i = [ti; block_id f] /\
      successors g (block_sentinel f) = [k] /\
      (exists V, seg g V (block_id f) (block_sentinel f)
        (fun u => run_block skip env f (block_id f :: u) true) /\ In (block_id f) V /\
        forall w, In w V -> own Fv env w))) /\
    (forall u, ~ run_stmts skip (known (block_statements f) env) (block_statements f) u true)).
  { exists (graph s5). split; [easy|].
    assert (FP : fresh sI env ((T ++ [k]) ++ Fv)).
    { eapply fresh_permutation; [|exact FI]. rewrite <- app_assoc. apply Permutation_app_head.
      apply Permutation_app_comm. }
    assert (R4 : reach (fun v => In v T \/ v = i) (own (T ++ [k]) env) sI s4).
    { eapply reach_trans.
      - apply (reach_same _ _ sI s2); try easy. constructor.
        + destruct R2 as [(d & Q & N) _ _]. exists d. split; [easy|]. intros v w I.
          assert (H : forall v, allowed (fun w => own T env w \/ w = i) sI v -> allowed (own (T ++ [k]) env) sI v).
          { intros x [[X|X]|X]; [left; now apply own_l|right; now rewrite X|now right]. }
          destruct (N v w I). split; now apply H.
        + apply R2.
        + intros v I. destruct R2 as [_ _ LL]. destruct (LL v I) as [[X|X]|X]; [left; now apply own_l|right; now rewrite X|now right].
      - eapply reach_link; [|exact E4]. left. apply in_app_iff. right. now left. }
    pose proof (fresh_after _ _ _ _ _ _ FP R4) as F4.
    assert (iF : ~ In i Fv) by (intros J; apply iN; rewrite !in_app_iff; auto).
    pose proof (fresh_last _ _ _ _ F4 iF) as F4'.
    destruct f as [fi fk fl]. simpl block_statements in *. destruct fl as [|x fl].
    - injection E5 as <-. split; [easy|]. split; [now left|]. now inversion 1.
    - apply then_some in E5 as (s6 & E6 & E5). apply then_some in E5 as (s7 & E7 & E5).
      apply at_vertex_some in E7 as (-> & L6). simpl block_sentinel in *. simpl block_id.
      assert (FT4 : functions s4 = functions sI) by (rewrite Q4; simpl; exact F2).
      assert (Rel4 : rel (functions (with_last (Some i) s4)) env) by (simpl; now rewrite FT4).
      assert (K4 : linked (graph s4) env).
      { eapply linked_after; [exact KI|exact R4|]. intros v [J| ->]; [|easy].
        apply (fresh_disjoint _ _ _ FI). apply in_app_iff. now left. }
      destruct (scope_closed _ _ _ env i E6 eq_refl Rel4) as ((R6 & F6 & I6) & _).
      pose proof E5 as E5'. apply link_last_some in E5' as (q & L5 & S5 & Q5).
      assert (q = fk) as -> by congruence.
      assert (C6 : forall v, successors (graph s6) v <> [] -> successors (graph s5) v = successors (graph s6) v).
      { intros v C. apply (reach_link (fun _ => False) (fun v => v = k)) in E5; [|easy].
        now apply (r_closed _ _ _ _ E5). }
      destruct (scope_ok fi fk (x :: fl) (with_last (Some i) s4) s6 env i) as (S7 & (V7 & SG7 & IV7 & BV7) & N7); auto.
      + eapply Forall_impl; [|exact HF]. now intros y (Q & _).
      + eapply Forall_impl; [|exact HF]. now intros y (_ & Q).
      + rewrite Q4. simpl inside. rewrite I2, INI. intros q r Q J. apply (HK q r Q). 
        apply in_app_iff. right. apply in_app_iff. left. unfold Fv, block_vertices, block_vertices_. right.
        apply in_app_iff. now left.
      + simpl graph in *. split; [|split].
        * intros v NV vi C.
          rewrite C6; rewrite (r_closed _ _ _ _ R6); simpl graph; auto; intros [J|J]; auto.
        * right. split; [easy|]. rewrite Si4 in S7. split; [rewrite C6; [easy|now rewrite S7]|].
          split; [rewrite Q5; simpl; now rewrite successors_app, S5, successors_one, Nat.eqb_refl|].
          exists V7. split; [|easy]. eapply seg_frame; [|exact SG7]. intros v I. apply C6.
          now apply (seg_closed _ _ _ _ _ SG7).
        * destruct N7 as [N7|(r & N7)]; [easy|]. exfalso. rewrite Q4 in N7. simpl in N7. rewrite I2, INI in N7.
          apply (HK _ _ N7). apply in_app_iff. right. apply in_app_iff. left.
          unfold Fv, block_vertices, block_vertices_. right. apply in_app_iff. right. now left. }
  destruct HFf as (g & <- & C5 & HFf & NRf).
  assert (dTF : forall v, In v T -> ~ In v Fv).
  { intros v I J. eapply (NoDup_disjoint T); [exact NDI|exact I|]. apply in_app_iff. now left. }
  assert (iT : ~ In i T) by (intros J; apply iN; apply in_app_iff; now left).
  assert (SGt5 : seg (graph s5) Vt ti tk (fun u => run_block skip env t (ti :: u) true)).
  { eapply seg_frame; [|exact SGt4]. intros v I. apply C5.
    - destruct (BVt v I) as [J|J]; [now apply dTF|]. intros Q. apply (fresh_disjoint _ _ _ FI v); [|easy].
      rewrite !in_app_iff. auto.
    - intros ->. destruct (BVt i I) as [J|J]; [now apply iT|easy].
    - now apply (seg_closed _ _ _ _ _ SGt4). }
  assert (Stk5 : successors (graph s5) tk = [k]).
  { rewrite C5; [easy|now apply dTF|intros ->; now apply iT|now rewrite Stk]. }
  assert (DT : leadz (graph s5) env (T ++ [k]) ti k
            (fun u => exists w, u = w ++ [k] /\ run_block skip env t (ti :: w) true)).
  { eapply leadz_equiv; [|eapply leadz_join; [|apply leadz_edge; exact Stk5]].
    2:{ exists Vt. split; [exact SGt5|]. split; [intros v I; right; now apply BVt|].
        split; [right; now left|now left]. }
    intros u. split.
    - intros (u1 & u2 & -> & H1 & ->). eauto.
    - intros (w & -> & H1). now exists w, [k]. }
  assert (B : leadz (graph s5) env (T ++ Fv ++ [k]) i k (fun u => exists w, u = w ++ [k] /\
     (run_block skip env t w true \/ (block_statements f <> [] /\ run_block skip env f w true)))).
  { destruct HFf as [(FE & Si5)|(FN & Si5 & Sfk & V & SGf & IVf & BVf)].
    - eapply leadz_equiv; [|eapply leadz_more; [|eapply leadz_join; [apply leadz_edge; exact Si5|exact DT]]].
      + intros u. split.
        * intros (u1 & u2 & -> & -> & (w & -> & H1)). exists (ti :: w). split; [easy|now left].
        * intros (w & -> & [H1|(N & _)]); [|easy].
          assert (exists w', w = ti :: w') as (w' & ->).
          { unfold ti. destruct t. simpl. eapply run_block_entry; eauto. }
          exists [ti], (w' ++ [k]). split; [easy|]. split; [easy|]. eauto.
      + intros v [I|I]; [left|now right]. rewrite !in_app_iff in *.
        destruct I as [[<-|[]]|[I|I]]; auto.
    - assert (DF : leadz (graph s5) env (Fv ++ [k]) (block_id f) k
            (fun u => exists w, u = w ++ [k] /\ run_block skip env f (block_id f :: w) true)).
      { eapply leadz_equiv; [|eapply leadz_join; [|apply leadz_edge; exact Sfk]].
        2:{ exists V. split; [exact SGf|]. split; [intros v I; right; now apply BVf|].
            split; [right; left; unfold Fv, block_vertices, block_vertices_; right; apply in_app_iff; right; now left|now left]. }
        intros u. split.
        - intros (u1 & u2 & -> & H1 & ->). eauto.
        - intros (w & -> & H1). now exists w, [k]. }
      destruct DT as (V1 & SG1 & B1 & Z1 & N1), DF as (V2 & SG2 & B2 & Z2 & N2).
      exists (i :: V1 ++ V2). split; [|split; [|split]].
      + eapply seg_equiv; [|eapply seg_choice; [exact Si5|exact SG1|exact SG2|exact N1|exact N2]].
        intros u. split.
        * intros (w & [(-> & (w' & -> & H1))|(-> & (w' & -> & H1))]).
          -- exists (ti :: w'). split; [easy|now left].
          -- exists (block_id f :: w'). split; [easy|now right].
        * intros (w & -> & [H1|(_ & H1)]).
          -- assert (exists w', w = ti :: w') as (w' & ->).
             { unfold ti. destruct t. simpl. eapply run_block_entry; eauto. }
             exists (w' ++ [k]). left. split; [easy|]. eauto.
          -- assert (exists w', w = block_id f :: w') as (w' & ->).
             { destruct f. simpl. eapply run_block_entry; eauto. }
             exists (w' ++ [k]). right. split; [easy|]. eauto.
      + intros v [<-|I]; [now left|]. right. apply in_app_iff in I as [I|I].
        * destruct (B1 v I) as [->|[J|J]]; [left; apply in_app_iff; now left| |now right].
          left. rewrite !in_app_iff in *. tauto.
        * destruct (B2 v I) as [->|[J|J]]; [| |now right]; left; rewrite !in_app_iff in *; [|tauto].
          right. left. unfold Fv, block_vertices, block_vertices_. now left.
      + right. left. rewrite !in_app_iff. right. right. now left.
      + left. now left. }
  split.
  - exists k. split; [easy|]. simpl graph. eapply leadz_equiv.
    2:{ apply (leadz_join _ _ _ _ _ i); [|exact B].
        eapply leadz_frame; [exact D1|]. intros v C O.
        assert (vi : v <> i) by congruence.
        assert (vX : ~ In v (T ++ Fv ++ [k])).
        { intros J. destruct O as [->|[O|O]].
          - apply fresh_app_r in F as (_ & U). now destruct (U l J) as (_ & U2 & _).
          - destruct F as (N & _). eapply NoDup_disjoint; [exact N|exact O|exact J].
          - now apply (fresh_disjoint _ _ _ FI v). }
        rewrite !in_app_iff in vX.
        assert (C2 : successors (graph s2) v = successors (graph sI) v).
        { apply (r_closed _ _ _ _ R2); [|easy]. intros [J|J]; [apply vX; auto|auto]. }
        assert (C4' : successors (graph s4) v = successors (graph sI) v) by (rewrite C4; rewrite C2; easy).
        rewrite C5; [easy|tauto|easy|]. now rewrite C4'. }
    assert (TF : forall b w, (forall u, ~ run_stmts skip (known (block_statements b) env) (block_statements b) u true) ->
              run_block skip env b w true -> run_block skip env b w false).
    { intros b w N Q. inversion Q; subst; [now constructor|]. exfalso. eapply N. simpl. eassumption. }
    assert (FT : forall b w, run_block skip env b w false -> run_block skip env b w true).
    { intros b w Q. inversion Q; subst. now constructor. }
    intros u. split.
    + intros (u1 & u2 & -> & (w & -> & H1) & (w' & -> & [H2|(N & H2)])); rewrite <- app_assoc; simpl.
      * apply run_true; auto.
      * apply run_false; auto.
    + intros Q. inversion Q; subst.
      * exists (u0 ++ [i]), (v ++ [k]). rewrite <- app_assoc. split; [easy|]. split; [eauto|].
        exists v. split; [easy|left; auto].
      * exists (u0 ++ [i]), (v ++ [k]). rewrite <- app_assoc. split; [easy|]. split; [eauto|].
        exists v. split; [easy|right; auto].
      * exfalso. now apply HEn.
  - intros u Q. inversion Q; subst; [eapply NRt|eapply NRf]; simpl; eassumption.
Qed.

Lemma stmts_ok x : stmt_ok x /\ def_ok x.
Proof.
  induction x using tstmt_induction.
  - split; [|easy]. intros s s' env l HE HK E L R K F. simpl is_return. simpl negb. split; [|now inversion 1].
    eapply leads_equiv; [|eapply (visit_expr_leads e); eauto]. intros u. split; [now constructor|now inversion 1].
  - split; [apply assignment_ok|easy].
  - split; [apply return_ok|easy].
  - split; [now apply choice_ok|easy].
  - split; [|easy]. intros s s' env l HE HK E. discriminate E.
  - split; [|now apply definition_ok].
    intros s s' env l HE HK E L R K F. simpl is_return. simpl negb. split; [|now inversion 1].
    simpl in E. injection E as <-. eapply leads_equiv; [|now apply leads_nil].
    intros u. simpl. split; [intros ->; constructor|now inversion 1].
Qed.

(** ** Modules *)

Lemma module_runs m g : NoDup (module_vertices m) -> (skip = true -> all_else m = true) ->
  thread_module m [] = Some g ->
  forall p, round_trip g (let (i, _) := m in i) p <-> run_module skip m p.
Proof.
  destruct m as [i b]. simpl module_vertices. simpl all_else. intros ND HE E. unfold thread_module in E.
  destruct (visit_scope visit_stmt b _) as [s|] eqn:ES; [|discriminate].
  destruct (link_last i s) as [s1|] eqn:EL; [|discriminate].
  destruct (inside s1); [|discriminate]. destruct (empty (functions s1)); [|discriminate]. injection E as <-.
  inversion_clear ND as [|? ? NI ND'].
  set (s0 := {| graph := []; last_vertex := Some i; functions := []; inside := [] |}) in ES.
  assert (R : rel (functions s0) []) by easy.
  destruct (scope_closed b s0 s [] i ES eq_refl R) as (_ & LS).
  assert (F : fresh s0 [] (block_vertices b)).
  { split; [easy|]. intros v I. split; [easy|]. split; [|easy]. simpl. intros [= ->]. easy. }
  destruct b as [bi k l]. simpl block_sentinel in LS. simpl block_statements in *.
  destruct (scope_ok bi k l s0 s [] i) as (SV & (V & SG & IV & BV) & N); auto.
  - apply Forall_forall. intros x _. apply stmts_ok.
  - apply Forall_forall. intros x _. apply stmts_ok.
  - easy.
  - intros pre f outer Q. now destruct pre.
  - simpl in SV. destruct N as [N|(r & N)]; [|discriminate N].
    apply link_last_some in EL as (k' & LK & SK & ->). rewrite LS in LK. injection LK as <-. simpl graph.
    set (g := graph s ++ [(k, i)]).
    assert (kB : In k (block_vertices (Block bi k l))) by (right; apply in_app_iff; right; now left).
    assert (ki : k <> i) by congruence.
    assert (SK' : successors g k = [i]) by (unfold g; now rewrite successors_app, SK, successors_one, Nat.eqb_refl).
    assert (SI : successors g i = [bi]).
    { unfold g. rewrite successors_app, SV, successors_one. apply Nat.eqb_neq in ki. now rewrite ki. }
    assert (SG' : seg g V bi k (fun u => run_block skip [] (Block bi k l) (bi :: u) true)).
    { eapply seg_frame; [|exact SG]. intros v I. unfold g. rewrite successors_app, successors_one.
      destruct (Nat.eqb_spec k v) as [<-|]; [|apply app_nil_r].
      exfalso. now apply (seg_closed _ _ _ _ _ SG k). }
    assert (SG2 := seg_app _ _ _ _ _ _ _ _ (seg_edge _ _ _ SI) SG' (or_introl IV)).
    assert (BI : ~ In i V) by (intros I; destruct (BV i I) as [J|[]]; easy).
    assert (HT : forall u, run_block skip [] (Block bi k l) u true -> run_block skip [] (Block bi k l) u false).
    { intros u Q. inversion Q; subst; [now constructor|]. exfalso. eapply N. eassumption. }
    assert (HT' : forall u, run_block skip [] (Block bi k l) u false -> run_block skip [] (Block bi k l) u true).
    { intros u Q. inversion Q; subst. now constructor. }
    assert (IU : forall u, run_block skip [] (Block bi k l) u true -> ~ In i u).
    { intros u Q. destruct (run_block_entry _ _ _ _ _ _ Q) as (w & ->). intros [J|J].
      - subst bi. apply NI. now left.
      - destruct (seg_in _ _ _ _ _ SG' w i Q J); [congruence|easy]. }
    intros p. split.
    + intros (P & u & -> & NU).
      destruct (seg_sound _ _ _ _ _ SG2 g (u ++ [i])) as (w & (w1 & w2 & -> & -> & H) & Q); [easy|easy|].
      simpl in Q. exists (bi :: w2).
      assert (LW : last w2 bi = k) by (apply (seg_end _ _ _ _ _ SG'); exact H).
      destruct Q as [(q & Q)|(q & Q)].
      * assert (q = [i]) as ->.
        { rewrite Q in P. change (i :: bi :: w2 ++ q) with (i :: (bi :: w2) ++ q) in P.
          apply path_app in P as (_ & P). rewrite last_cons, LW in P.
          destruct q as [|a q].
          - rewrite app_nil_r in Q. exfalso. apply (IU _ H). rewrite <- Q. apply in_app_iff. right. now left.
          - destruct P as (I & _). rewrite SK' in I. destruct I as [<-|[]].
            destruct q as [|a q]; [easy|]. exfalso. apply NU.
            destruct (exists_last (l := a :: q)) as (q' & y & Q'); [easy|]. rewrite Q' in Q.
            change (bi :: w2 ++ i :: q' ++ [y]) with ((bi :: w2) ++ (i :: q') ++ [y]) in Q.
            rewrite app_assoc in Q. apply app_inj_tail in Q as (-> & _). apply in_app_iff. right. now left. }
        split; [simpl; now rewrite Q|]. now apply HT.
      * exfalso. apply (IU _ H). rewrite Q, <- app_assoc. apply in_app_iff. right. now left.
    + intros (u & -> & H). apply HT' in H. split; [|exists u; split; [easy|now apply IU]].
      pose proof H as H'. destruct (run_block_entry _ _ _ _ _ _ H) as (w & ->).
      apply path_app. split.
      * apply (seg_path _ _ _ _ _ SG2); [easy|]. exists [bi], w. easy.
      * rewrite last_cons, (seg_end _ _ _ _ _ SG' w H). simpl. rewrite SK'. split; [now left|easy].
Qed.
End Runs.
