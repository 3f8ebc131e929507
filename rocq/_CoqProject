-Q theories Verif
theories/Base.v
theories/BaseFacts.v
theories/Model_Datamodel.v
theories/Spec_Datamodel.v
theories/Proofs_Datamodel.v
theories/Proofs_Syntax.v
theories/Proofs_Datamodel2.v
theories/Proofs_Datamodel3.v
theories/Proofs_Datamodel4.v
theories/Props_Datamodel.v
theories/Model_Conllu.v
theories/Spec_Conllu.v
theories/Proofs_Conllu.v
theories/Proofs_Conllu2.v
theories/Proofs_Conllu3.v
theories/Proofs_Conllu4.v
theories/Proofs_Conllu5.v
theories/Proofs_Conllu6.v
theories/Proofs_Conllu7.v
theories/Proofs_Conllu8.v
theories/Proofs_Conllu9.v
theories/Proofs_Conllu10.v
theories/Props_Conllu.v
theories/Model_UDEval.v
theories/Spec_UDEval.v
theories/Proofs_UDEval.v
theories/Proofs_UDEval2.v
theories/Proofs_UDEval3.v
theories/Proofs_UDEval4.v
theories/Proofs_UDEval5.v
theories/Proofs_UDEval6.v
theories/Proofs_UDEval7.v
theories/Proofs_UDEval8.v
theories/Proofs_UDEval9.v
theories/Props_UDEval.v
theories/Model_Vocab.v
theories/Model_Lemma.v
theories/Spec_Vocab.v
theories/Spec_Lemma.v
theories/Proofs_Vocab.v
theories/Proofs_Lemma.v
theories/Proofs_Lemma2.v
theories/Props_Lemma.v
theories/Model_Features.v
theories/Spec_Features.v
theories/Proofs_Features.v
theories/Proofs_Features2.v
theories/Proofs_Features3.v
theories/Proofs_Features4.v
theories/Proofs_Features5.v
theories/Proofs_Features6.v
theories/Props_Features.v
theories/Model_Builder.v
theories/Spec_Builder.v
theories/Proofs_Builder.v
theories/Proofs_Builder2.v
theories/Proofs_Builder3.v
theories/Proofs_Builder4.v
theories/Proofs_Builder5.v
theories/Props_Builder.v
theories/Model_Harness.v
theories/Spec_Harness.v
theories/Proofs_Harness.v
theories/Proofs_Harness2.v
theories/Proofs_Harness3.v
theories/Proofs_Harness4.v
theories/Proofs_Harness5.v
theories/Props_Harness.v
theories/Model_Grid.v
theories/Spec_Grid.v
theories/Proofs_Grid.v
theories/Proofs_Grid2.v
theories/Proofs_Grid3.v
theories/Proofs_Grid4.v
theories/Proofs_Grid5.v
theories/Props_Grid.v
theories/Model_Training.v
theories/Spec_Training.v
theories/Proofs_Training.v
theories/Proofs_Training2.v
theories/Props_Training.v
theories/Model_Processors.v
theories/Spec_Processors.v
theories/Proofs_Processors.v
theories/Proofs_Processors2.v
theories/Proofs_Processors3.v
theories/Props_Processors.v
theories/Spec_Labels.v
theories/Proofs_Labels.v
theories/Proofs_Labels2.v
theories/Proofs_Labels3.v
theories/Props_Labels.v
theories/Model_Heap.v
theories/Spec_Heap.v
theories/Proofs_Heap.v
theories/Proofs_Heap2.v
theories/Proofs_Heap3.v
theories/Props_Heap.v
theories/Model_Network.v
theories/Spec_Network.v
theories/Proofs_Network.v
theories/Proofs_Network2.v
theories/Proofs_Network3.v
theories/Proofs_Network4.v
theories/Props_Network.v
theories/Model_Tester.v
theories/Spec_Tester.v
theories/Proofs_Tester.v
theories/Proofs_Tester2.v
theories/Proofs_Tester3.v
theories/Proofs_Tester4.v
theories/Proofs_Tester5.v
theories/Props_Tester.v
theories/Model_Neural.v
theories/Spec_Neural.v
theories/Proofs_Neural.v
theories/Proofs_Neural2.v
theories/Proofs_Neural3.v
theories/Proofs_Neural4.v
theories/Proofs_Neural5.v
theories/Props_Neural.v
theories/Proofs_Neural6.v
theories/Spec_Gold.v
theories/Proofs_Gold.v
theories/Proofs_Gold2.v
theories/Proofs_Gold3.v
theories/Props_Gold.v
theories/Model_Config.v
theories/Spec_Config.v
theories/Proofs_Config.v
theories/Proofs_Config2.v
theories/Proofs_Config3.v
theories/Proofs_Config4.v
theories/Proofs_Config5.v
theories/Proofs_Config6.v
theories/Proofs_Config7.v
theories/Proofs_Config8.v
theories/Proofs_Config9.v
theories/Proofs_Config10.v
theories/Proofs_Config11.v
theories/Proofs_Config12.v
theories/Proofs_Config13.v
theories/Proofs_Config14.v
theories/Proofs_Config15.v
theories/Proofs_Config16.v
theories/Proofs_Config17.v
theories/Proofs_Config18.v
theories/Proofs_Config19.v
theories/Props_Config.v
theories/Model_Tdozat.v
theories/Spec_Tdozat.v
theories/Proofs_Tdozat.v
theories/Proofs_Tdozat2.v
theories/Proofs_Tdozat3.v
theories/Proofs_Tdozat4.v
theories/Props_Tdozat.v
theories/Model_Resources.v
theories/Spec_Resources.v
theories/Proofs_Resources.v
theories/Proofs_Resources2.v
theories/Props_Resources.v
theories/Model_Layers.v
theories/Model_Loss.v
theories/Spec_Layers.v
theories/Spec_Loss.v
theories/Proofs_Layers.v
theories/Proofs_Layers2.v
theories/Proofs_Loss.v
theories/Proofs_Loss2.v
theories/Proofs_Choice.v
theories/Props_Layers.v
theories/Model_Experiment.v
theories/Spec_Experiment.v
theories/Proofs_Experiment.v
theories/Proofs_Experiment2.v
theories/Proofs_Experiment3.v
theories/Proofs_Experiment4.v
theories/Proofs_Experiment5.v
theories/Proofs_Experiment6.v
theories/Props_Experiment.v
theories/Model_Graph.v
theories/Spec_Graph.v
theories/Proofs_Graph.v
theories/Proofs_Graph2.v
theories/Proofs_Graph3.v
theories/Proofs_Graph4.v
theories/Proofs_Graph5.v
theories/Proofs_Graph6.v
theories/Props_Graph.v
theories/Model_Script.v
theories/Spec_Script.v
theories/Proofs_Script.v
theories/Proofs_Script2.v
theories/Proofs_Script3.v
theories/Proofs_Script4.v
theories/Props_Script.v
theories/Model_Saving.v
theories/Spec_Saving.v
theories/Proofs_Saving.v
theories/Proofs_Saving2.v
theories/Proofs_Saving3.v
theories/Props_Saving.v
theories/Model_Search.v
theories/Spec_Search.v
theories/Proofs_Search.v
theories/Proofs_Search2.v
theories/Proofs_Search3.v
theories/Proofs_Search4.v
theories/Props_Search.v
theories/Model_Dropout.v
theories/Spec_Dropout.v
theories/Proofs_Dropout.v
theories/Proofs_Dropout2.v
theories/Props_Dropout.v
theories/Model_Step.v
theories/Spec_Step.v
theories/Proofs_Step.v
theories/Proofs_Step2.v
theories/Proofs_Step3.v
theories/Props_Step.v
theories/Model_Recursion.v
theories/Spec_Recursion.v
theories/Proofs_Recursion.v
theories/Proofs_Recursion2.v
theories/Proofs_Recursion3.v
theories/Props_Recursion.v
theories/Spec_Goldfile.v
theories/Proofs_Goldfile.v
theories/Proofs_Goldfile2.v
theories/Proofs_Goldfile3.v
theories/Proofs_Goldfile4.v
theories/Proofs_Goldfile5.v
theories/Proofs_Goldfile6.v
theories/Props_Goldfile.v
theories/Model_Encoding.v
theories/Spec_Encoding.v
theories/Proofs_Encoding.v
theories/Proofs_Encoding2.v
theories/Proofs_Encoding3.v
theories/Proofs_Encoding4.v
theories/Props_Encoding.v
theories/Model_Float.v
theories/Spec_Float.v
theories/Proofs_Float.v
theories/Proofs_Float2.v
theories/Proofs_Float3.v
theories/Proofs_Float4.v
theories/Proofs_Float5.v
theories/Proofs_Float6.v
theories/Proofs_Float7.v
theories/Proofs_Float8.v
theories/Proofs_Float9.v
theories/Props_Float.v
theories/Model_Print.v
theories/Spec_Print.v
theories/Proofs_Print.v
theories/Props_Print.v
theories/Model_Cli.v
theories/Spec_Cli.v
theories/Proofs_Cli.v
theories/Proofs_Cli2.v
theories/Proofs_Cli3.v
theories/Props_Cli.v
theories/Model_Program.v
theories/Proofs_Program.v
theories/Props_Program.v
theories/Tests_Data.v
theories/Tests_Repo.v
