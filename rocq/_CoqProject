-Q theories Verif

theories/Base/Array.v
theories/Base/Field.v
theories/Base/ListX.v
theories/Base/Machine.v
theories/Base/Pocklington.v
theories/Base/Poly.v
theories/Base/SmallField.v
theories/Spec/ActivationSpec.v
theories/Spec/CircuitMeaning.v
theories/Spec/CompilerSpec.v
theories/Spec/Constants.v
theories/Spec/Containers.v
theories/Spec/Conv.v
theories/Spec/ConvTranspose.v
theories/Spec/Elementwise.v
theories/Spec/Extract.v
theories/Spec/Gemm.v
theories/Spec/Gkr.v
theories/Spec/Graph.v
theories/Spec/GridSample.v
theories/Spec/HonestProver.v
theories/Spec/InputMapping.v
theories/Spec/Io.v
theories/Spec/Layered.v
theories/Spec/MatMul.v
theories/Spec/Matrix.v
theories/Spec/MaxPool.v
theories/Spec/Merkle.v
theories/Spec/Multilinear.v
theories/Spec/Numbers.v
theories/Spec/RealOps.v
theories/Spec/Remainder.v
theories/Spec/RemainderCircuit.v
theories/Spec/RemainderHonest.v
theories/Spec/Reshaping.v
theories/Spec/Resize.v
theories/Spec/Runner.v
theories/Spec/Selection.v
theories/Spec/Serdes.v
theories/Spec/Shapes.v
theories/Spec/Sumcheck.v
theories/Spec/Tensors.v
theories/Spec/Transcript.v
theories/Spec/Widths.v
theories/Spec/Witness.v
theories/Spec/Zkvm.v
theories/Model/Activations.v
theories/Model/Bounds.v
theories/Model/Builder.v
theories/Model/Compare.v
theories/Model/Constants.v
theories/Model/Containers.v
theories/Model/Conv.v
theories/Model/ConvLayer.v
theories/Model/ConvTranspose.v
theories/Model/ConvTransposeLayer.v
theories/Model/DataMovement.v
theories/Model/Elementwise.v
theories/Model/Expr.v
theories/Model/Extract.v
theories/Model/Fields.v
theories/Model/Freivalds.v
theories/Model/Gadgets.v
theories/Model/Gemm.v
theories/Model/Gkr.v
theories/Model/GkrProver.v
theories/Model/Graph.v
theories/Model/GridSample.v
theories/Model/GridSampleCircuit.v
theories/Model/GridSampleHint.v
theories/Model/InputMapping.v
theories/Model/Io.v
theories/Model/Ir.v
theories/Model/Layered.v
theories/Model/Layers.v
theories/Model/LogUp.v
theories/Model/LogUpHints.v
theories/Model/MatMul.v
theories/Model/MaxPool.v
theories/Model/MaxPoolLayer.v
theories/Model/Merkle.v
theories/Model/Normalize.v
theories/Model/Polynomials.v
theories/Model/Remainder.v
theories/Model/RemainderWitness.v
theories/Model/Reshaping.v
theories/Model/Resize.v
theories/Model/Runner.v
theories/Model/Selection.v
theories/Model/Serdes.v
theories/Model/Shapes.v
theories/Model/Sumcheck.v
theories/Model/Trace.v
theories/Model/Transcript.v
theories/Model/Witness.v
theories/Model/Zkvm.v
theories/Proofs/ActivationProps.v
theories/Proofs/Activations1.v
theories/Proofs/Activations2.v
theories/Proofs/Activations3.v
theories/Proofs/ArithmeticProps.v
theories/Proofs/BitRange.v
theories/Proofs/Bounds.v
theories/Proofs/Bounds2.v
theories/Proofs/Bounds3.v
theories/Proofs/Bounds4.v
theories/Proofs/Bounds5.v
theories/Proofs/Bounds6.v
theories/Proofs/Bounds7.v
theories/Proofs/Bounds8.v
theories/Proofs/Builder.v
theories/Proofs/Bundle.v
theories/Proofs/Compare.v
theories/Proofs/CompilerCases.v
theories/Proofs/Constants.v
theories/Proofs/Containers.v
theories/Proofs/Conv.v
theories/Proofs/Conv2.v
theories/Proofs/ConvLayer.v
theories/Proofs/ConvTranspose.v
theories/Proofs/ConvTransposeLayer.v
theories/Proofs/Crc.v
theories/Proofs/DataMovement.v
theories/Proofs/DataMovement2.v
theories/Proofs/DataMovement3.v
theories/Proofs/DataMovement4.v
theories/Proofs/DataMovement5.v
theories/Proofs/DataMovement6.v
theories/Proofs/DataMovement7.v
theories/Proofs/DataMovement8.v
theories/Proofs/DataMovement9.v
theories/Proofs/Division.v
theories/Proofs/Elementwise.v
theories/Proofs/ElementwiseProps.v
theories/Proofs/ExpLookup.v
theories/Proofs/Expr.v
theories/Proofs/Extract.v
theories/Proofs/Flatten.v
theories/Proofs/Freivalds.v
theories/Proofs/Gadgets.v
theories/Proofs/Gemm.v
theories/Proofs/GemmLayer.v
theories/Proofs/GkrAlg.v
theories/Proofs/GkrClean.v
theories/Proofs/GkrComplete.v
theories/Proofs/GkrEdge.v
theories/Proofs/GkrHonest.v
theories/Proofs/GkrLayer.v
theories/Proofs/GkrProve.v
theories/Proofs/GkrRounds.v
theories/Proofs/GkrSound.v
theories/Proofs/GkrVerify.v
theories/Proofs/Goldilocks.v
theories/Proofs/Graph.v
theories/Proofs/GridSample.v
theories/Proofs/GridSampleCircuit.v
theories/Proofs/GridSampleHonest.v
theories/Proofs/GridSampleLayer.v
theories/Proofs/GridSampleProps.v
theories/Proofs/Heap.v
theories/Proofs/HonestRun.v
theories/Proofs/InputMapping.v
theories/Proofs/Io.v
theories/Proofs/IoMain.v
theories/Proofs/Lanes.v
theories/Proofs/LayerNorm.v
theories/Proofs/LayerProps.v
theories/Proofs/Layered.v
theories/Proofs/LayeredMain.v
theories/Proofs/Layers.v
theories/Proofs/Layers2.v
theories/Proofs/LogUp.v
theories/Proofs/LogUpHints.v
theories/Proofs/LogUpKeys.v
theories/Proofs/M31.v
theories/Proofs/MatMul.v
theories/Proofs/MaxPool.v
theories/Proofs/Merkle.v
theories/Proofs/Multilinear.v
theories/Proofs/NormalizeBuild.v
theories/Proofs/NormalizeCircuit.v
theories/Proofs/NormalizeExpr.v
theories/Proofs/NormalizePush.v
theories/Proofs/NormalizeRoot.v
theories/Proofs/NormalizeStep.v
theories/Proofs/Polynomials.v
theories/Proofs/Polynomials2.v
theories/Proofs/RangeCheck.v
theories/Proofs/RemainderArith.v
theories/Proofs/RemainderBuild.v
theories/Proofs/RemainderConv.v
theories/Proofs/RemainderHonest.v
theories/Proofs/RemainderHonestExact.v
theories/Proofs/RemainderHonestLayers.v
theories/Proofs/RemainderHonestMain.v
theories/Proofs/RemainderHonestTaps.v
theories/Proofs/RemainderHonestWitnesses.v
theories/Proofs/RemainderImages.v
theories/Proofs/RemainderLayers.v
theories/Proofs/RemainderMlp.v
theories/Proofs/RemainderNorm.v
theories/Proofs/RemainderPublic.v
theories/Proofs/RemainderSound.v
theories/Proofs/RemainderWitnesses.v
theories/Proofs/Rescale.v
theories/Proofs/RescaleArray.v
theories/Proofs/Reshaping.v
theories/Proofs/Reshaping2.v
theories/Proofs/Resize.v
theories/Proofs/ResizeProps.v
theories/Proofs/Runner.v
theories/Proofs/Selection.v
theories/Proofs/Selection2.v
theories/Proofs/Selection3.v
theories/Proofs/Selection4.v
theories/Proofs/Selection5.v
theories/Proofs/SelectionProps.v
theories/Proofs/Serdes.v
theories/Proofs/Shapes.v
theories/Proofs/Shapes2.v
theories/Proofs/Softmax.v
theories/Proofs/Sumcheck.v
theories/Proofs/SumcheckMain.v
theories/Proofs/Tensors.v
theories/Proofs/Trace.v
theories/Proofs/TraceComplete.v
theories/Proofs/Transcript.v
theories/Proofs/TranscriptMain.v
theories/Proofs/UnionFind.v
theories/Proofs/Witness.v
theories/Proofs/Zkvm.v
theories/Proofs/ZkvmFile.v
theories/Proofs/ZkvmMain.v
theories/Proofs/ZkvmWidths.v
theories/Properties/Activations.v
theories/Properties/Arithmetic.v
theories/Properties/Bounds.v
theories/Properties/Bundle.v
theories/Properties/Compiler.v
theories/Properties/Containers.v
theories/Properties/Conv.v
theories/Properties/ConvTranspose.v
theories/Properties/DataMovement.v
theories/Properties/Elementwise.v
theories/Properties/Fields.v
theories/Properties/Gemm.v
theories/Properties/Gkr.v
theories/Properties/Graph.v
theories/Properties/GridSample.v
theories/Properties/InputMapping.v
theories/Properties/Io.v
theories/Properties/Layered.v
theories/Properties/Layers.v
theories/Properties/LogUp.v
theories/Properties/MatMul.v
theories/Properties/MaxPool.v
theories/Properties/Merkle.v
theories/Properties/Polynomials.v
theories/Properties/RangeChecks.v
theories/Properties/Remainder.v
theories/Properties/RemainderArith.v
theories/Properties/RemainderHonest.v
theories/Properties/Reshaping.v
theories/Properties/Resize.v
theories/Properties/Runner.v
theories/Properties/Selection.v
theories/Properties/Serdes.v
theories/Properties/Shapes.v
theories/Properties/Sumcheck.v
theories/Properties/Transcript.v
theories/Properties/Witness.v
theories/Properties/Zkvm.v
