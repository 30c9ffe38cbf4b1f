(** * Temporaries: what such calls should do. *)
From Verif Require Import Machine Spec Program Bombs BombProgram TempModel.

Section calm.
Context {A op0 op1 opn op2 res st : Type} (S : skit A op0 op1 opn op2 res st).
(** The empty container of the same type. *)
Context (empty : st -> st).
(** The call does what it always does; what it leaves in the temporary is dropped after everything the call drops. *)
Definition stemp2 (o : op2) (xy : st * st) : sres A (st * st) res :=
  match spec2 S o xy with
  | SRet (x, y) r d => SRet (x, empty (snd xy)) r (d ++ items S y)
  | SPanic (x, y) d k => SPanic (x, empty (snd xy)) (d ++ items S y) k
  end.
Definition stempn (o : opn) (y : st) : sres A st st :=
  match specn S o y with
  | SRet y' n d => SRet (empty y) n (d ++ items S y')
  | SPanic y' d k => SPanic (empty y) (d ++ items S y') k
  end.
Definition temp_spec : skit A op0 op1 (passed opn) (passed op2) res st := {|
  spec0 := spec0 S; spec1 := spec1 S;
  specn := fun o => match o with ByRef o => specn S o | Temp o => stempn o end;
  spec2 := fun o => match o with ByRef o => spec2 S o | Temp o => stemp2 o end;
  legal1 := legal1 S;
  legaln := fun o => match o with ByRef o | Temp o => legaln S o end;
  legal2 := fun o => match o with ByRef o | Temp o => legal2 S o end;
  given0 := given0 S; given1 := given1 S;
  givenn := fun o => match o with ByRef o | Temp o => givenn S o end;
  items := items S; outs := outs S |}.
End calm.

(** With destructors that may panic: what happens when a container is dropped is [bsk]. *)
Section bombs.
Context {A op0 op1 opn op2 res st : Type} (B : bkit A op0 op1 opn op2 res st) (empty : st -> st).
Definition btemp2 (o : op2) (xy : st * st) : bres (A := A) (st * st) res :=
  match bs2 B o xy with
  | BRet (x, y) r d =>
      match bsk B y with
      | BRet _ _ d' => BRet (x, empty (snd xy)) r (d ++ d')
      | BPanic _ d' k => BPanic (x, empty (snd xy)) (d ++ d') k
      | BAbort => BAbort | BOpen => BOpen
      end
  | BPanic (x, y) d k =>
      match bsk B y with
      | BRet _ _ d' => BPanic (x, empty (snd xy)) (d ++ d') k
      | BPanic _ _ _ => BAbort
      | BAbort => BAbort | BOpen => BOpen
      end
  | BAbort => BAbort | BOpen => BOpen
  end.
Definition btempn (o : opn) (y : st) : bres (A := A) st st :=
  match bsn B o y with
  | BRet y' n d =>
      match bsk B y' with
      | BRet _ _ d' => BRet (empty y) n (d ++ d')
      | BPanic _ d' k =>
          match bsk B n with
          | BRet _ _ d'' => BPanic (empty y) (d ++ d' ++ d'') k
          | BPanic _ _ _ => BAbort
          | BAbort => BAbort | BOpen => BOpen
          end
      | BAbort => BAbort | BOpen => BOpen
      end
  | BPanic y' d k =>
      match bsk B y' with
      | BRet _ _ d' => BPanic (empty y) (d ++ d') k
      | BPanic _ _ _ => BAbort
      | BAbort => BAbort | BOpen => BOpen
      end
  | BAbort => BAbort | BOpen => BOpen
  end.
Definition temp_bspec : bkit A op0 op1 (passed opn) (passed op2) res st := {|
  bs0 := bs0 B; bs1 := bs1 B;
  bsn := fun o => match o with ByRef o => bsn B o | Temp o => btempn o end;
  bs2 := fun o => match o with ByRef o => bs2 B o | Temp o => btemp2 o end;
  bsk := bsk B;
  bg0 := bg0 B; bg1 := bg1 B;
  bgn := fun o => match o with ByRef o | Temp o => bgn B o end |}.
End bombs.
