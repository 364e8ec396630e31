-Q theories Verif
theories/Base.v
theories/Num.v
theories/DblOrder.v
theories/Params.v
theories/ParamsSpec.v
theories/IntProofs.v
theories/PropIntParam.v
theories/DoubleProofs.v
theories/ArrayProofs.v
theories/FloatLemmas.v
theories/FDoubleProofs.v
theories/CompositeProofs.v
theories/PropParams.v
theories/Random.v
theories/PropRandom.v
theories/Cache.v
theories/CacheProofs.v
theories/PropCache.v
theories/Mutators.v
theories/PropMutators.v
theories/Individual.v
theories/LibEnv.v
theories/PropIndividual.v
theories/PropText.v
theories/GA.v
theories/CounterProofs.v
theories/GAProofs.v
theories/GAInit.v
theories/PropGA.v
theories/PropSelect.v
theories/Misc.v
theories/PropMisc.v
theories/Settings.v
theories/PropSettings.v
theories/Parallel.v
theories/PropParallel.v
theories/Queue.v
theories/PropQueue.v
theories/Pool.v
theories/PropPool.v
theories/Mpi.v
theories/PropMpi.v
theories/Optim.v
theories/PropOptim.v
theories/Hooke.v
theories/PropHooke.v
theories/Searches.v
theories/PropSearches.v
theories/Annealing.v
theories/PropAnnealing.v
theories/NelderMead.v
theories/PropNelderMead.v
theories/Dsp.v
theories/PropDsp.v
theories/Scales.v
theories/PropScales.v
theories/Spline.v
theories/PropSpline.v
theories/PropSplineFloat.v
theories/PropSplineLast.v
theories/PropWaveletFn.v
theories/FastWavelet.v
theories/PropFastWavelet.v
theories/Cwt.v
theories/PropCwt.v
theories/Rosenbrock.v
theories/PropRosenbrock.v
theories/Transfer.v
theories/PropTransfer.v
theories/Gradient.v
theories/PropGradient.v
theories/PropSteepest.v
theories/Heap.v
theories/HeapSpec.v
theories/HeapProofs.v
theories/PropHeap.v
theories/PropGATrace.v
theories/PropHookeRun.v
theories/PropNMBounds.v
theories/PropNMPass.v
theories/GAStats.v
theories/PropGAStats.v
theories/PoolStop.v
theories/PropPoolStop.v
theories/Gauss.v
theories/Analytic.v
theories/PropAnalytic.v
theories/LockPool.v
theories/PropLockPool.v
theories/PropInitial.v
theories/GAPool.v
theories/PropGAPool.v
theories/PropRosenProcess.v
theories/RoundError.v
theories/PropRounding.v
theories/FftShared.v
theories/PropFft.v
theories/Dispatch.v
theories/PropDispatch.v
theories/PropFwtRounding.v
theories/Examples.v
theories/PropExamples.v
theories/PropQuantise.v
theories/PropBinary64.v
theories/PropSchedules.v
theories/GASave.v
theories/PropSave.v
theories/MpiLife.v
theories/PropMpiLife.v
theories/PoolForeign.v
theories/PropPoolForeign.v
theories/PropGradientProcess.v
theories/ArrShared.v
theories/PropArrShared.v
theories/PropGATotal.v
theories/PropGALibrary.v
theories/PropGAAgain.v
theories/PropGABest.v
theories/PropGABestCalls.v
theories/PropGABestComposite.v
theories/PropGAExample.v
