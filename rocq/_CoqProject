-Q theories Verif
theories/Arith.v
theories/ArithProof.v
theories/ArithSpec.v
theories/Base.v
theories/Bitmap.v
theories/BitmapProof.v
theories/BitmapSpec.v
theories/BitmapThms.v
theories/Cond.v
theories/Condac.v
theories/Create.v
theories/CreateInv.v
theories/Ctor.v
theories/Dlist.v
theories/Dns.v
theories/Dumpr.v
theories/Dynarr.v
theories/DynarrProof.v
theories/DynarrSpec.v
theories/Errno.v
theories/ErrnoInv.v
theories/Event.v
theories/Fctx.v
theories/FctxInv.v
theories/Fd.v
theories/FdEff.v
theories/FdInv.v
theories/FdStep.v
theories/Fdret.v
theories/Halmp.v
theories/Idle.v
theories/IdleInv.v
theories/IdleSpec.v
theories/Idpool.v
theories/IdpoolProof.v
theories/IdpoolThms.v
theories/Inet.v
theories/Inet6Proof.v
theories/InetPrint.v
theories/InetProof.v
theories/InetSpec.v
theories/Iofdr.v
theories/Iofdw.v
theories/Iomp.v
theories/Ipsk.v
theories/IpskInv.v
theories/IpskKer.v
theories/IpskSpec.v
theories/Ipv6.v
theories/Mainq.v
theories/MainqInv.v
theories/Marshal.v
theories/MarshalChain.v
theories/MarshalDec.v
theories/MarshalDec2.v
theories/MarshalEnc.v
theories/MarshalGlue.v
theories/MarshalParse.v
theories/MarshalSafe.v
theories/MarshalSim.v
theories/MarshalSpec.v
theories/MarshalTerm.v
theories/Mm.v
theories/MmProof.v
theories/MmSpec.v
theories/Mpq.v
theories/MpqComp.v
theories/MpqEvent.v
theories/MpqEx.v
theories/MpqInv.v
theories/MpqLife.v
theories/MpqMore.v
theories/MpqSpec.v
theories/MpqTerm.v
theories/MpqThms.v
theories/MpqTrace.v
theories/Mpqp.v
theories/Netev.v
theories/NetevEv.v
theories/NetevInv.v
theories/NetevSpec.v
theories/Netifs.v
theories/Netlink.v
theories/NetlinkProof.v
theories/NetlinkSafe.v
theories/NetlinkSpec.v
theories/Onq.v
theories/Perf.v
theories/PerfInv.v
theories/PerfSpec.v
theories/PropArith.v
theories/PropBitmap.v
theories/PropCond.v
theories/PropCondac.v
theories/PropCreate.v
theories/PropCtor.v
theories/PropDlist.v
theories/PropDns.v
theories/PropDumpr.v
theories/PropDynarr.v
theories/PropErrno.v
theories/PropEvent.v
theories/PropFctx.v
theories/PropFd.v
theories/PropFdret.v
theories/PropHalmp.v
theories/PropIdle.v
theories/PropIdpool.v
theories/PropInet.v
theories/PropIofdr.v
theories/PropIofdw.v
theories/PropIomp.v
theories/PropIpsk.v
theories/PropIpv6.v
theories/PropMainq.v
theories/PropMarshal.v
theories/PropMm.v
theories/PropMpq.v
theories/PropMpqEvent.v
theories/PropMpqp.v
theories/PropNetev.v
theories/PropNetifs.v
theories/PropNetlink.v
theories/PropOnq.v
theories/PropPerf.v
theories/PropPsb.v
theories/PropQflags.v
theories/PropRbtree.v
theories/PropRefobj.v
theories/PropRefobjEx.v
theories/PropRoute.v
theories/PropRtstr.v
theories/PropRwapi.v
theories/PropRwlock.v
theories/PropSkopt.v
theories/PropSlock.v
theories/PropThreadac.v
theories/PropTimer.v
theories/PropTls.v
theories/PropUtil.v
theories/PropWait.v
theories/PropWinth.v
theories/Psb.v
theories/PsbProof.v
theories/PsbSpec.v
theories/Qflags.v
theories/QflagsInv.v
theories/QflagsSpec.v
theories/Rbtree.v
theories/RbtreeErase.v
theories/RbtreeFix.v
theories/RbtreeIter.v
theories/RbtreeProof.v
theories/RbtreeSpec.v
theories/RbtreeThms.v
theories/Refobj.v
theories/RefobjCount.v
theories/RefobjDes.v
theories/RefobjGlob.v
theories/RefobjHist.v
theories/RefobjInv.v
theories/RefobjMore.v
theories/RefobjOp.v
theories/RefobjQ.v
theories/RefobjReach.v
theories/RefobjRest.v
theories/RefobjSpec.v
theories/RefobjStep.v
theories/RefobjTrace.v
theories/Route.v
theories/Rtstr.v
theories/Rwapi.v
theories/RwapiInv.v
theories/RwapiSpec.v
theories/Rwlock.v
theories/RwlockInv.v
theories/RwlockSpec.v
theories/RwlockStep.v
theories/RwlockThms.v
theories/Skopt.v
theories/Slock.v
theories/Threadac.v
theories/Timer.v
theories/TimerApi.v
theories/TimerHist.v
theories/TimerOps.v
theories/TimerProof.v
theories/TimerRun.v
theories/TimerSpec.v
theories/TimerThms.v
theories/Tls.v
theories/Util.v
theories/Wait.v
theories/Winth.v
theories/WinthInv.v
theories/WinthSpec.v
