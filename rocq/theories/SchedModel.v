(** * Schedule of the physics packages of test/dcmip2016 *)
From Verif Require Import TimeModel RunModel.

(** Initialize of KesslerPhysics (KesslerPhysics.cpp:54-81), TerminatorPhysics
    (TerminatorPhysics.cpp:50-53) and DCMIPPhysics (DCMIPPhysics.cpp:102-152)
    replaces WorkflowProcess::Initialize (virtual, WorkflowProcess.h:52-54) and
    only allocates work arrays *)
Definition physics_initialize (w : wfproc) (t : time) : mres wfproc := MOk w.
