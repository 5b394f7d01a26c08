-Q theories Verif
theories/Base.v
theories/Spec.v
theories/Limits.v
theories/Compare.v
theories/AddSub.v
theories/Division.v
theories/Fourier.v
theories/Multiplication.v
theories/Bignum.v
theories/BNInt.v
theories/Print.v
theories/Compress.v
theories/CompressTest.v
theories/Machine.v
theories/While.v
theories/Wp.v
theories/ValueProof.v
theories/CompareProof.v
theories/AddSubProof.v
theories/Outcome.v
theories/DivisionProof.v
theories/BignumProof.v
theories/OperatorProof.v
theories/AnyDigitsProof.v
theories/PropAnyDigits.v
theories/PropAddSub.v
theories/PropCompare.v
theories/DivOpProof.v
theories/PaddedProof.v
theories/PropDivision.v
theories/PadDivisorProof.v
theories/BothPaddedProof.v
theories/PropPadded.v
theories/PropPadDivisor.v
theories/PropBothPadded.v
theories/FailProof.v
theories/DebugDivProof.v
theories/PropDebugDiv.v
theories/PropFailure.v
theories/PropObject.v
theories/PropInt.v
theories/IntTest.v
theories/PropIntTest.v
theories/PropPrint.v
theories/Conv.v
theories/NaiveProof.v
theories/Pow2Proof.v
theories/PropNaive.v
theories/HistoryProof.v
theories/PropHistory.v
theories/Dft.v
theories/Norm.v
theories/FloatModel.v
theories/AngleProof.v
theories/FftError.v
theories/ConvError.v
theories/MulProof.v
theories/Ieee.v
theories/Formats.v
theories/Environment.v
theories/IeeeProof.v
theories/FormatProof.v
theories/Exact.v
theories/ExactProof.v
theories/MulOpProof.v
theories/PropFourier.v
theories/TransformProof.v
theories/PropTransform.v
theories/PropFormats.v
theories/MulFormats.v
theories/MulFormatProof.v
theories/PropMulFormats.v
theories/Excess.v
theories/ExcessProof.v
theories/PropExcess.v
theories/PropMul.v
theories/PropProgram.v
theories/Program.v
theories/ProgramSpec.v
theories/ProgramProof.v
theories/ArithTest.v
theories/Expression.v
theories/PropLaws.v
theories/IntStream.v
theories/PropIntStream.v
theories/Format.v
theories/PropFormat.v
theories/Convert.v
theories/PropArithTest.v
theories/EuclidProof.v
theories/PropEuclid.v
theories/PropConvert.v
theories/PropLoop.v
theories/PropNan.v
theories/CompressProof.v
theories/SignedText.v
theories/SignedTextProof.v
theories/PowerDivProof.v
theories/CompressDebugProof.v
theories/PropCompress.v
theories/PropCompressTest.v
theories/PropPowerDiv.v
theories/Strict.v
theories/DebugSoundProof.v
theories/PropDebugSound.v
theories/MemoryProof.v
theories/PropMemory.v
theories/HandlersProof.v
theories/PropHandlers.v
theories/ZeroProof.v
theories/PropZero.v
theories/RequestProof.v
theories/RequestOpProof.v
theories/PropRequest.v
theories/Sink.v
theories/PropSink.v
theories/UniformProof.v
theories/Threads.v
theories/ThreadsProof.v
theories/PropThreads.v
theories/MulMemory.v
theories/MulMemoryProof.v
theories/PropMulMemory.v
theories/Sorting.v
theories/SortingProof.v
theories/PropSorting.v
theories/DivWork.v
theories/DivWorkProof.v
theories/PropDivWork.v
theories/Grouping.v
theories/PropGrouping.v
theories/Clients.v
theories/PropClients.v
theories/Calculator.v
theories/CalculatorProof.v
theories/PropCalculator.v
theories/PropPortable.v
theories/Capacity.v
theories/CapacityProof.v
theories/GrowthProof.v
theories/PropCapacity.v
theories/Work.v
theories/WorkProof.v
theories/PropWork.v
theories/ModPower.v
theories/EulerProof.v
theories/PropModPower.v
theories/Sequence.v
theories/PropSequence.v
theories/Catch.v
theories/PropCatch.v
theories/Factor.v
theories/PropFactor.v
theories/DivDigits.v
theories/DivDigitsProof.v
theories/PropDivDigits.v
theories/IntMachine.v
theories/PropIntMachine.v
theories/EnvironmentProof.v
theories/PropEnvironment.v
theories/WideProof.v
theories/PropWide.v
